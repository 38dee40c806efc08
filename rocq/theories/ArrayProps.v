(** Theorems about script arrays (C51, C52, C53, C88). *)
From Coq Require Import List ZArith Lia Bool SpecFloat.
From Verif Require Import Base FloatModel FloatBits FloatInt FloatProofs VectorModel VectorSpec VectorProofs ValueModel
  ValueSpec ValueProofs ArrayModel ArraySpec ArrayProofs.
Import ListNotations.
Open Scope Z_scope.

(** A program state got by a history of operations with indexes in range, and the sequences
    its arrays should be. [var] gives the variables references point to. *)
Definition reached (var : Z -> stk) (w : world) (ls : list (list stk)) : Prop :=
  exists os xs, Forall (fun o => Forall plain (args o)) os /\
    seqs_run 1999985 os [] = Some (ls, xs) /\ arun var os w_empty = Ret w xs.
(** Every array shows its sequence. *)
Definition all_show (w : world) (ls : list (list stk)) : Prop :=
  forall a l, nth_error ls a = Some l -> shows w a l.

Lemma reached_wrep var w ls : reached var w ls -> exists pss, wrep w pss ls /\ allplain ls.
Proof.
  intros (os & xs & Pa & Es & Er).
  destruct (arun_ok var os w_empty [] [] ls xs wrep_empty) as (w' & pss & E & W & Pl); auto.
  { intros []; discriminate. }
  rewrite Er in E. inversion E; subst. eauto.
Qed.

(** C88. Arrays are sequences: every history of operations in range runs without error, with the
    observations the sequences give, and each array ends up showing its sequence. *)
Theorem C88_arrays_are_sequences : forall var os ls xs,
  Forall (fun o => Forall plain (args o)) os -> seqs_run 1999985 os [] = Some (ls, xs) ->
  exists w, arun var os w_empty = Ret w xs /\ all_show w ls.
Proof.
  intros var os ls xs Pa Es.
  destruct (arun_ok var os w_empty [] [] ls xs wrep_empty) as (w & pss & E & W & Pl); auto.
  { intros []; discriminate. }
  exists w. split; auto. intros a l El. eapply wrep_shows; eauto.
Qed.
Print Assumptions C88_arrays_are_sequences.

Lemma plain_hist os : forallb (fun o => forallb (fun x => existsb (Z.eqb (props x))
    [P_UNDEFINED; P_NULL; P_INT; P_FLOAT; P_BOOL; P_TYPE; P_FUNCTION; P_OBJECT]) (args o)) os = true ->
  Forall (fun o => Forall plain (args o)) os.
Proof.
  intros H. rewrite forallb_forall in H. apply Forall_forall. intros o Ho. apply H in Ho.
  rewrite forallb_forall in Ho. apply Forall_forall. intros x Hx. apply Ho in Hx.
  rewrite existsb_exists in Hx. destruct Hx as (p & Hp & E). apply Z.eqb_eq in E. unfold plain. now rewrite E.
Qed.
Definition I (z : Z) : stk := elem false (VInt z).
Definition hist : list aop :=
  [ANew; APush 0 (I 1); APush 0 (I 2); APush 0 (I 3); AInsert 0 1 (I 9); AErase 0 0; AConcat 0 0; ASet 1 2 (I 7);
   AExtend 0 1; APop 1; AGet 1 4; ALength 0; ANew; APush 2 (str 5); AClear 1].
Example C88_case :
  Forall (fun o => Forall plain (args o)) hist /\
  seqs_run 1999985 hist [] =
    Some ([[I 9; I 2; I 3; I 9; I 2; I 7; I 9; I 2; I 3]; []; [str 5]],
          repeat ONothing 9 ++ [OElem (I 3); OElem (I 2); OLength 9; ONothing; ONothing; ONothing]).
Proof.
  split; [apply plain_hist|]; reflexivity.
Qed.

(** What is kept when a constant or a reference to a variable is stored: the plain value. *)
Theorem C88_stored_value : forall var s v a, has (props (var a)) P_PTR_STK = false ->
  a_push var s (elem true v) = a_push var s (elem false v) /\
  a_push var s (Stk a P_PTR_STK) = a_push var s (var a) /\
  (forall x, has (props x) P_PTR_STK = false -> has (props x) P_OBJECT = true ->
     a_push var s x = a_push var s (Stk (val x) P_OBJECT)).
Proof.
  intros var s v a E. split; [|split].
  - unfold a_push. replace (stored var (elem true v)) with (stored var (elem false v)); auto.
    destruct v as [| |z|w|[]|t|f]; reflexivity.
  - unfold a_push. replace (stored var (Stk a P_PTR_STK)) with (stored var (var a)); auto.
    unfold stored. rewrite E. reflexivity.
  - intros x Hp Ho. unfold a_push. replace (stored var (Stk (val x) P_OBJECT)) with (stored var x); auto.
    unfold stored. rewrite Hp. cbn [val props].
    assert (Hs : has (Z.ldiff (props x) P_READ_ONLY) P_OBJECT = true).
    { unfold has in *. rewrite negb_true_iff, Z.eqb_neq in *. intros H0. apply Ho.
      apply Z.bits_inj'. intros n Hn. assert (H1 := f_equal (fun z => Z.testbit z n) H0). cbv beta in H1.
      rewrite ?Z.land_spec, ?Z.ldiff_spec, ?Z.bits_0 in *.
      destruct (Z.testbit P_OBJECT n) eqn:Eo; [|now rewrite ?andb_false_r].
      destruct (Z.testbit P_READ_ONLY n) eqn:Er; [|now destruct (Z.testbit (props x) n)].
      exfalso. assert (H2 : Z.land P_OBJECT P_READ_ONLY = 0) by reflexivity.
      assert (H3 := f_equal (fun z => Z.testbit z n) H2). cbv beta in H3. rewrite Z.land_spec, Z.bits_0, Eo, Er in H3. discriminate. }
    rewrite Hs. reflexivity.
Qed.
Print Assumptions C88_stored_value.

(** ** C51: indexes out of range *)
Lemma on_exc {A} var w ls a l (f : ast -> outcome ast A) : reached var w ls -> nth_error ls a = Some l ->
  (forall v ps, nth_error (warrs w) a = Some v -> arrep (wmem w) v ps l -> f (mka (wmem w) v) = Exc (mka (wmem w) v)) ->
  on w a f = Exc w.
Proof.
  intros Hr El H. destruct (reached_wrep _ _ _ Hr) as (pss & W & _).
  destruct (wrep_at _ _ _ _ _ W El) as (v & ps & Ev & Ep & A0).
  unfold on. rewrite Ev, (H v ps Ev A0). cbn [mem arr]. rewrite upd_same by auto. now destruct w.
Qed.
Lemma ptr_out s i : out_of_size (arr s) i = true -> a_ptr s i = Exc s.
Proof. intros H. unfold a_ptr, get. now rewrite H. Qed.

(** C51, what holds: an index in range erases and inserts as in a sequence (C88); a negative
    index, or one not below the capacity of the array, is refused by eraseAt with nothing changed;
    an index two or more beyond the end is refused by insertAt with all arrays as they were. *)
Theorem C51_index_refused_partial : forall var w ls a l, reached var w ls -> nth_error ls a = Some l ->
  exists c, Z.of_nat (length l) <= c /\
    (forall z, - 2 ^ 31 <= z < 0 \/ c <= z < 2 ^ 31 -> astep var (AErase a z) w = Exc w) /\
    (forall z x, Z.of_nat (length l) + 1 < z < 2 ^ 31 -> exists w', astep var (AInsert a z x) w = Exc w' /\ all_show w' ls).
Proof.
  intros var w ls a l Hr El. destruct (reached_wrep _ _ _ Hr) as (pss & W & _).
  destruct (wrep_at _ _ _ _ _ W El) as (v0 & ps0 & Ev & Ep & A0).
  pose proof (arrep_size _ _ _ _ A0) as Hs0.
  exists (size v0). split; [exact Hs0|]. split.
  - intros z Hz. cbn [astep]. rewrite (on_exc var w ls a l); auto.
    intros v ps Ev' A. assert (v = v0) as -> by congruence.
    unfold a_eraseAt. rewrite to_int_small by lia. unfold a_eraseElementAt. rewrite ptr_out.
    + cbn [bind flagged]. now destruct (_ <=? _).
    + unfold out_of_size. cbn [arr]. destruct (Z.ltb_spec z 0); auto. destruct (Z.leb_spec (size v0) z); auto. lia.
  - intros z x Hz.
    set (m' := wmem w ++ [Some (stored var x)]).
    assert (E : astep var (AInsert a z x) w = Exc (mkw m' (upd (warrs w) a v0))).
    { cbn [astep]. unfold on. rewrite Ev. unfold a_insertAt. cbn [mem arr]. rewrite to_int_small by lia.
      unfold insert. rewrite (arrep_count _ _ _ _ A0).
      destruct (Z.ltb_spec (Z.of_nat (length l) + 1) z); [|lia]. reflexivity. }
    eexists. split; [exact E|].
    assert (Fr : frame (wmem w) m' ps0 ps0).
    { split; [unfold m'; rewrite app_length; lia|]. split; auto. intros p Hp _. unfold m'. now apply load_app. }
    assert (A1 : arrep m' v0 ps0 l).
    { destruct A0 as (R & N & F). split; auto. split; auto. apply (Forall2_weak _ _ _ _ F).
      intros p y _ L. unfold m'. rewrite load_app; auto. now apply load_lt in L. }
    pose proof (wrep_change _ _ _ _ _ _ _ _ _ _ _ W Ev Ep El A1 Fr) as W'.
    rewrite (upd_same ls) in W' by auto. intros b lb Eb. eapply wrep_shows; eauto.
Qed.
Print Assumptions C51_index_refused_partial.

Example C51_case : exists w, reached (fun s => k_undefined) w [[I 1; I 2; I 3]] /\
  astep (fun s => k_undefined) (AErase 0 (-1)) w = Exc w /\ astep (fun s => k_undefined) (AErase 0 16) w = Exc w.
Proof.
  eexists. split; [exists [ANew; APush 0 (I 1); APush 0 (I 2); APush 0 (I 3)], (repeat ONothing 4); split;
    [apply plain_hist; reflexivity | split; [vm_compute; reflexivity | vm_compute; reflexivity]]|].
  split; vm_compute; reflexivity.
Qed.

(** C51 is false: once an element was erased, eraseAt with the index one past the end reports an
    error, yet frees the last element and removes it from the array ... *)
Theorem C51_erase_past_end_refuted : forall var w ls a l z l1, reached var w ls -> nth_error ls a = Some l ->
  Z.of_nat (length l) < 1999985 -> erase_at l z = Some l1 -> z < Z.of_nat (length l1) ->
  exists w1 w2, astep var (AErase a z) w = Ret w1 ONothing /\ shows w1 a l1 /\
    astep var (AErase a (Z.of_nat (length l1))) w1 = Exc w2 /\ shows w2 a (removelast l1).
Proof.
  intros var w ls a l z l1 Hr El Hl Es Hz. destruct (reached_wrep _ _ _ Hr) as (pss & W & _).
  destruct (wrep_at _ _ _ _ _ W El) as (v & ps & Ev & Ep & A).
  destruct (arr_erase _ _ _ _ _ _ A Es) as (p & v1 & Epp & E1 & Ee & A1 & F1).
  pose proof Es as Es'. unfold erase_at in Es'. destruct (get_at l z) as [y|] eqn:G; [|discriminate].
  destruct (elem_at _ _ _ _ _ _ A G) as (p' & Hi & Ep' & _). assert (p' = p) as -> by congruence. clear Ep'.
  set (ps1 := firstn (Z.to_nat z) ps ++ skipn (Z.to_nat z + 1) ps) in *.
  pose proof (arrep_len _ _ _ _ A) as Lps. pose proof (arrep_len _ _ _ _ A1) as Lps1.
  assert (Lp1 : (length ps1 = length ps - 1)%nat).
  { unfold ps1. rewrite app_length, firstn_length, skipn_length. lia. }
  destruct A as (R & N & F). destruct A1 as (R1 & N1 & F1').
  destruct (erase_keeps v z v1 ps R ltac:(lia) Ee) as [Sz Keep].
  set (n := (length ps1)) in *.
  (* the cell one past the end still has the last pointer *)
  destruct (nth_error ps n) as [q|] eqn:Eq; [|apply nth_error_None in Eq; lia].
  assert (Cell : nth_error (buf v1) n = Some (Some q)).
  { rewrite Keep by lia. destruct R as (_ & _ & _ & Hn). rewrite Hn by lia. now rewrite Eq. }
  assert (Last : nth_error ps1 (n - 1) = Some q).
  { unfold ps1. rewrite nth_error_app, firstn_length, Nat.min_l by lia.
    destruct (Nat.ltb_spec (n - 1) (Z.to_nat z)); [lia|]. rewrite nth_error_skipn. rewrite <- Eq. f_equal. lia. }
  assert (Hsz : size v = Z.of_nat (length (buf v))) by (destruct R; auto).
  assert (Hle : (length ps <= length (buf v))%nat) by (destruct R as (_ & _ & H & _); auto).
  assert (P1 : a_ptr (mka (upd (wmem w) p None) v1) (Z.of_nat n) = Ret (mka (upd (wmem w) p None) v1) q).
  { unfold a_ptr. cbn [arr]. unfold get, out_of_size. destruct (Z.ltb_spec (Z.of_nat n) 0); [lia|].
    destruct (Z.leb_spec (size v1) (Z.of_nat n)); [lia|]. cbn [orb].
    rewrite rd_nth by lia. rewrite Nat2Z.id, Cell. reflexivity. }
  destruct (Forall2_nth _ _ _ F1' _ _ Last) as (x & Ex & Lx).
  assert (C1 : count v1 = Z.of_nat n) by (destruct R1 as (_ & C & _); exact C).
  assert (S1 : size v1 = Z.of_nat (length (buf v1))) by (destruct R1; auto).
  (* the vector after the second erasing *)
  assert (E2 : exists v2, erase v1 (Z.of_nat n) = Ret v2 tt /\ rep nat v2 (firstn (n - 1) ps1)).
  { unfold erase, out_of_size. destruct (Z.ltb_spec (Z.of_nat n) 0); [lia|].
    destruct (Z.leb_spec (size v1) (Z.of_nat n)); [lia|]. cbn [orb].
    rewrite C1. replace (Z.to_nat (Z.of_nat n - 1 - Z.of_nat n)) with O by lia. cbn [for_up].
    eexists. split; [reflexivity|]. destruct R1 as (_ & _ & L1 & H1).
    assert (HB : items v1 = Some (buf v1)).
    { unfold buf in *. destruct (items v1); auto. simpl in *. lia. }
    rewrite HB. unfold rep. rewrite buf_mk. cbn [count size]. rewrite firstn_length, Nat.min_l by (unfold n; lia).
    repeat split; try lia. intros i Hi'. rewrite nth_error_firstn.
    destruct (Nat.ltb_spec i (n - 1)); [|lia]. apply H1. lia. }
  destruct E2 as (v2 & E2 & R2).
  eexists _, _. split; [|split; [|split]].
  - cbn [astep]. unfold on. rewrite Ev. unfold a_eraseAt. rewrite to_int_small by lia. rewrite E1. reflexivity.
  - pose proof (wrep_change _ _ _ _ _ _ _ _ _ _ _ W Ev Ep El (conj R1 (conj N1 F1')) F1) as W1.
    cbn [mem arr]. eapply wrep_shows; [exact W1|]. apply nth_error_upd_eq. apply nth_error_Some. congruence.
  - cbn [astep]. unfold on. cbn [warrs wmem mem arr].
    rewrite nth_error_upd_eq by (apply nth_error_Some; congruence).
    unfold a_eraseAt. replace (Z.of_nat (length l1)) with (Z.of_nat n) by (unfold n; lia).
    rewrite to_int_small by lia. unfold a_eraseElementAt. rewrite P1. cbn [bind]. unfold a_free. cbn [mem]. rewrite Lx.
    cbn [bind mem arr]. rewrite E2. cbn [lift flagged]. rewrite C1, Z.leb_refl. cbn [wquiet bind mem arr]. reflexivity.
  - assert (Hn : length l1 = n) by (unfold n; lia).
    assert (A2 : arrep (upd (upd (wmem w) p None) q None) v2 (firstn (n - 1) ps1) (removelast l1)).
    { split; auto. destruct (NoDup_drop _ _ _ N1 Last) as [N2 H2].
      replace (n - 1 + 1)%nat with n in * by lia.
      rewrite (skipn_all2 ps1) in N2, H2 by (unfold n; lia). rewrite app_nil_r in N2, H2. split; auto.
      rewrite removelast_firstn_len, Hn. replace (pred n) with (n - 1)%nat by lia.
      apply (Forall2_weak (fun r x => load (upd (wmem w) p None) r = Some x)).
      - now apply Forall2_firstn.
      - intros r y0 Hr0 Lr. rewrite load_upd_ne; auto. intros ->; auto. }
    eexists. split; [cbn [warrs]; apply nth_error_upd_eq; rewrite upd_length; apply nth_error_Some; congruence|].
    split; [eapply arrep_count; eauto|]. intros i Hi'.
    destruct (nth_error (removelast l1) (Z.to_nat i)) as [x0|] eqn:E; [|apply nth_error_None in E; lia].
    exists x0. split; auto. cbn [wmem]. eapply get_ok; eauto. unfold get_at. destruct (Z.ltb_spec i 0); [lia|auto].
Qed.
Print Assumptions C51_erase_past_end_refuted.

Example C51_past_end_case : erase_at [I 1; I 2; I 3] 0 = Some [I 2; I 3] /\ removelast [I 2; I 3] = [I 2].
Proof. split; reflexivity. Qed.

(** ... and erasing the same last index twice frees the element twice. *)
Theorem C51_erase_twice_refuted : forall var w ls a l, reached var w ls -> nth_error ls a = Some l -> l <> [] ->
  Z.of_nat (length l) < 1999985 ->
  exists w1, astep var (AErase a (Z.of_nat (length l) - 1)) w = Ret w1 ONothing /\ shows w1 a (removelast l) /\
    astep var (AErase a (Z.of_nat (length l) - 1)) w1 = Undef.
Proof.
  intros var w ls a l Hr El Hne Hl. destruct (reached_wrep _ _ _ Hr) as (pss & W & _).
  destruct (wrep_at _ _ _ _ _ W El) as (v & ps & Ev & Ep & A).
  pose proof (removelast_erase l Hne) as Es. set (n := Z.of_nat (length l) - 1) in *.
  destruct (arr_erase _ _ _ _ _ _ A Es) as (p & v1 & Epp & E1 & Ee & A1 & F1).
  pose proof (arrep_len _ _ _ _ A) as Lps.
  assert (Hpos : 0 < Z.of_nat (length l)) by (destruct l; simpl; [congruence|lia]).
  pose proof A as (R & N & F).
  destruct (erase_keeps v n v1 ps R ltac:(lia) Ee) as [Sz Keep].
  eexists. split; [|split].
  - cbn [astep]. unfold on. rewrite Ev. unfold a_eraseAt. rewrite to_int_small by lia. rewrite E1. reflexivity.
  - pose proof (wrep_change _ _ _ _ _ _ _ _ _ _ _ W Ev Ep El A1 F1) as W1.
    cbn [mem arr]. eapply wrep_shows; [exact W1|]. apply nth_error_upd_eq. apply nth_error_Some. congruence.
  - cbn [astep]. unfold on. cbn [warrs wmem mem arr].
    rewrite nth_error_upd_eq by (apply nth_error_Some; congruence).
    unfold a_eraseAt. rewrite to_int_small by lia. unfold a_eraseElementAt.
    assert (P1 : a_ptr (mka (upd (wmem w) p None) v1) n = Ret (mka (upd (wmem w) p None) v1) p).
    { unfold a_ptr. cbn [arr]. unfold get, out_of_size. pose proof (arrep_size _ _ _ _ A).
      destruct (Z.ltb_spec n 0); [lia|]. destruct (Z.leb_spec (size v1) n); [lia|]. cbn [orb].
      rewrite rd_nth by lia. rewrite Keep by lia. destruct R as (_ & _ & _ & Hn). rewrite Hn by lia. now rewrite Epp. }
    rewrite P1. cbn [bind]. unfold a_free. cbn [mem].
    assert (Hp : (p < length (wmem w))%nat) by (eapply arrep_lt; eauto; now apply nth_error_In in Epp).
    rewrite load_upd_eq by auto. cbn [bind flagged]. now destruct (_ <=? _).
Qed.
Print Assumptions C51_erase_twice_refuted.

(** insertAt with a negative index writes before the buffer, whatever the array holds. *)
Theorem C51_insert_negative_refuted : forall var w ls a l z x, reached var w ls -> nth_error ls a = Some l ->
  Z.of_nat (length l) < 1999984 -> - 2 ^ 31 <= z < 0 -> astep var (AInsert a z x) w = Undef.
Proof.
  intros var w ls a l z x Hr El Hl Hz. destruct (reached_wrep _ _ _ Hr) as (pss & W & _).
  destruct (wrep_at _ _ _ _ _ W El) as (v & ps & Ev & Ep & A).
  pose proof (arrep_len _ _ _ _ A) as Lps. pose proof A as (R & _ & _).
  cbn [astep]. unfold on. rewrite Ev. unfold a_insertAt. cbn [mem arr]. rewrite to_int_small by lia.
  unfold insert. pose proof (arrep_count _ _ _ _ A) as C. rewrite C.
  destruct (Z.ltb_spec (Z.of_nat (length l) + 1) z); [lia|].
  destruct (pushSlot_ok nat v ps R) as (v1 & E & Hs & Hc & Hlt & HI & Hn); [lia|].
  rewrite E. cbn [bind].
  assert (X : forall k i (b : list (option nat)), Z.of_nat k > i -> 0 <= i ->
     for_down k i (fun i m => cpy m (i - 1) m i) b = None).
  { induction k as [|k IH]; intros i b H1 H2; [lia|]. cbn [for_down]. unfold cpy.
    destruct (Z.eq_dec i 0) as [->|].
    - unfold rd. reflexivity.
    - destruct (rd b (i - 1)); auto. destruct (wr b i o); auto. apply IH; lia. }
  rewrite X; auto; lia.
Qed.
Print Assumptions C51_insert_negative_refuted.

(** insertAt one past the end is accepted: the array grows by one, the element is not in it, and
    reading the new last element is undefined behaviour. *)
Lemma push_fresh v ps x : rep nat v ps -> Z.of_nat (length ps) < 15 -> (forall j, (length ps <= j < 16)%nat -> nth_error (buf v) j = Some None) ->
  size v = 16 -> exists v', push v x = Ret v' tt /\ rep nat v' (ps ++ [x]) /\ size v' = 16 /\
    forall j, (length ps + 1 <= j < 16)%nat -> nth_error (buf v') j = Some None.
Proof.
  intros R Hl Hj Hs. pose proof R as (Hs' & Hc & Hle & Hn).
  destruct (push_ok nat v ps x R) as (v' & E & R'); [lia|]. exists v'. split; auto. split; auto.
  unfold push, pushSlot in E. cbv zeta in E. rewrite Hs in E. cbn [Z.eqb] in E. change (16 =? 0) with false in E. cbv iota in E.
  rewrite Hs, Hc in E. destruct (Z.eqb_spec 16 (Z.of_nat (length ps))); [lia|]. cbn [bind count] in E.
  unfold set_item in E. cbn [count] in E.
  assert (B : forall c z, buf (mkvec (items v) c z) = buf v) by reflexivity. rewrite B in E.
  rewrite wr_some in E by lia. inversion E; subst; clear E. cbn [size]. split; [reflexivity|].
  intros j Hj'. rewrite buf_mk, nth_error_upd_ne by lia. apply Hj. lia.
Qed.
Lemma push_first x : exists v', push (@v_empty nat) x = Ret v' tt /\ rep nat v' [x] /\ size v' = 16 /\
    forall j, (1 <= j < 16)%nat -> nth_error (buf v') j = Some None.
Proof.
  eexists. split; [reflexivity|]. split; [|split; [reflexivity|]].
  - split; [reflexivity|]. split; [reflexivity|]. split; [apply Nat.leb_le; reflexivity|].
    intros [|i] Hi; [reflexivity|cbn in Hi; lia].
  - intros j Hj. do 16 (destruct j; [reflexivity || lia|]). lia.
Qed.
(** Pushing the elements of [l] to a new array. *)
Lemma pushes_ok var : forall l m v ps l0, arrep m v ps l0 -> l0 <> [] -> size v = 16 ->
  (forall j, (length ps <= j < 16)%nat -> nth_error (buf v) j = Some None) ->
  Z.of_nat (length l0 + length l) < 16 -> Forall plain l ->
  exists m' v' ps', arun var (map (APush 0) l) (mkw m [v]) = Ret (mkw m' [v']) (map (fun _ => ONothing) l) /\
    arrep m' v' ps' (l0 ++ l) /\ size v' = 16 /\ (forall j, (length ps' <= j < 16)%nat -> nth_error (buf v') j = Some None).
Proof.
  induction l as [|x l IH]; intros m v ps l0 A Hne Hs Hj Hl Pl.
  - exists m, v, ps. rewrite app_nil_r. auto.
  - cbn [map arun astep]. unfold on. cbn [warrs wmem nth_error]. cbn [length] in Hl.
    pose proof (arrep_len _ _ _ _ A) as Lps.
    destruct (arr_push m v ps l0 var x A) as (m1 & v1 & E1 & A1 & F1); [lia|].
    destruct (push_fresh v ps (length m)) as (v1' & E1' & R1' & S1 & J1); [apply A|lia|auto|auto|].
    assert (v1' = v1) as ->.
    { unfold a_push, a_newSlot in E1. cbn [mem arr] in E1. rewrite E1' in E1. cbn [lift bind] in E1.
      unfold a_store in E1. cbn [mem arr] in E1. rewrite load_new in E1. now inversion E1. }
    rewrite E1. cbn [wquiet bind mem arr upd].
    inversion Pl as [|? ? P1 P2]; subst. rewrite stored_plain in A1 by auto.
    destruct (IH m1 v1 (ps ++ [length m]) (l0 ++ [x])) as (m2 & v2 & p2 & E2 & A2 & S2 & J2); auto.
    + destruct l0; discriminate.
    + rewrite app_length. cbn [length]. intros j H. apply J1. lia.
    + rewrite app_length. cbn [length]. lia.
    + exists m2, v2, p2. rewrite E2. cbn [bind]. rewrite <- app_assoc in A2. auto.
Qed.
Theorem C51_insert_gap_refuted : forall var l x y, Forall plain (x :: l) -> plain y -> Z.of_nat (length (x :: l)) < 15 ->
  exists w w', arun var (ANew :: map (APush 0) (x :: l)) w_empty = Ret w (map (fun _ => ONothing) (x :: x :: l)) /\
    shows w 0 (x :: l) /\
    astep var (AInsert 0 (Z.of_nat (length (x :: l)) + 1) y) w = Ret w' ONothing /\
    astep var (ALength 0) w' = Ret w' (OLength (Z.of_nat (length (x :: l)) + 1)) /\
    astep var (AGet 0 (Z.of_nat (length (x :: l)))) w' = Undef.
Proof.
  intros var l x y Pl Py Hl. inversion Pl as [|? ? P1 P2]; subst.
  destruct (push_first 0) as (v0 & E0 & R0 & S0 & J0).
  assert (A0 : arrep [Some x] v0 [0%nat] [x]).
  { split; auto. split; [constructor; [tauto|constructor]|]. constructor; [reflexivity|constructor]. }
  destruct (pushes_ok var l [Some x] v0 [0%nat] [x] A0) as (m & v & ps & E & A & Hs & Hj); auto.
  { discriminate. }
  { cbn [length] in *. lia. }
  set (n := length (x :: l)) in *.
  assert (Ln : length ([x] ++ l) = n) by reflexivity.
  pose proof (arrep_len _ _ _ _ A) as Lps. pose proof (arrep_count _ _ _ _ A) as C. rewrite Ln in *.
  assert (Er : arun var (ANew :: map (APush 0) (x :: l)) w_empty = Ret (mkw m [v]) (map (fun _ => ONothing) (x :: x :: l))).
  { cbn [map arun astep]. cbn [bind]. unfold on. cbn [warrs wmem w_empty app nth_error].
    unfold a_push, a_newSlot. cbn [mem arr length app]. rewrite E0. cbn [lift bind].
    unfold a_store. cbn [mem arr]. change (load [Some k_undefined] 0) with (Some k_undefined). cbv iota.
    cbn [mem arr upd wquiet bind]. rewrite stored_plain by auto. rewrite E. reflexivity. }
  assert (W : wrep (mkw m [v]) [ps] [[x] ++ l]).
  { split; auto. split; auto. split.
    - intros [|a] v' p' l' H1 H2 H3; [|destruct a; discriminate]. inversion H1; inversion H2; inversion H3; subst. exact A.
    - intros [|a] [|b] p' q' p H1 H2 _ _; auto; [destruct b; discriminate|destruct a; discriminate|destruct a; discriminate]. }
  (* the insertion *)
  assert (Hbuf : Z.of_nat (length (buf v)) = 16) by (destruct A as ((H & _) & _); lia).
  assert (Ei : exists b', insert v (Z.of_nat n + 1) (length m) = Ret (mkvec (Some b') (Z.of_nat n + 1) 16) tt /\
     nth_error b' n = Some None /\ length b' = length (buf v)).
  { unfold insert. rewrite C. destruct (Z.ltb_spec (Z.of_nat n + 1) (Z.of_nat n + 1)); [lia|].
    unfold pushSlot. rewrite Hs. change (16 =? 0) with false. cbv iota zeta. rewrite Hs, C.
    destruct (Z.eqb_spec 16 (Z.of_nat n)); [lia|]. cbn [bind count].
    replace (Z.to_nat (Z.of_nat n + 1 - 1 - (Z.of_nat n + 1))) with O by lia. cbn [for_down].
    unfold set_item. rewrite buf_mk.
    assert (B : forall c z, buf (mkvec (items v) c z) = buf v) by reflexivity. rewrite B.
    rewrite wr_some by lia. cbn [count size].
    eexists. split; [reflexivity|]. split; [|apply upd_length].
    rewrite nth_error_upd_ne by lia. apply Hj. lia. }
  destruct Ei as (b' & Ei & Hb & Lb).
  eexists _, _. split; [exact Er|]. split; [eapply wrep_shows; [exact W|reflexivity]|]. split; [|split].
  - cbn [astep]. unfold on. cbn [warrs wmem nth_error]. unfold a_insertAt. cbn [mem arr].
    rewrite to_int_small by lia. rewrite Ei. cbn [lift wquiet bind mem arr upd]. reflexivity.
  - cbn [astep warrs nth_error count]. reflexivity.
  - cbn [astep]. unfold on. cbn [warrs wmem nth_error]. unfold a_get. cbn [arr count].
    destruct (Z.leb_spec (Z.of_nat n + 1) (Z.of_nat n)); [lia|].
    unfold a_ptr. cbn [arr]. unfold get, out_of_size. cbn [size]. rewrite buf_mk.
    destruct (Z.ltb_spec (Z.of_nat n) 0); [lia|]. destruct (Z.leb_spec 16 (Z.of_nat n)); [lia|]. cbn [orb].
    rewrite rd_nth by lia. rewrite Nat2Z.id, Hb. reflexivity.
Qed.
Print Assumptions C51_insert_gap_refuted.

(** An index is taken modulo 2^32: far out of range, it is accepted as one in range. *)
Theorem C51_index_wraps_refuted : forall var s z x,
  a_eraseAt s (z + 2 ^ 32) = a_eraseAt s z /\ a_insertAt var s (z + 2 ^ 32) x = a_insertAt var s z x.
Proof.
  intros var s z x. assert (to_int (z + 2 ^ 32) = to_int z) as E.
  { unfold to_int. replace (z + 2 ^ 32 + 2 ^ 31) with (z + 2 ^ 31 + 1 * 2 ^ 32) by lia. now rewrite Z_mod_plus_full. }
  unfold a_eraseAt, a_insertAt. now rewrite E.
Qed.
Print Assumptions C51_index_wraps_refuted.

(** ** C52 *)
(** [a+b] is a new array with the elements of [a] and then those of [b]; no other array changes. *)
Theorem C52_concat : forall var w ls a b la lb, reached var w ls -> nth_error ls a = Some la -> nth_error ls b = Some lb ->
  Z.of_nat (length la + length lb) < 1999985 -> Forall (fun l => Z.of_nat (length l) < 1999985) ls ->
  exists w', astep var (AConcat a b) w = Ret w' ONothing /\ shows w' (length ls) (la ++ lb) /\ all_show w' ls.
Proof.
  intros var w ls a b la lb Hr Ea Eb Hl Hs. destruct (reached_wrep _ _ _ Hr) as (pss & W & Pl).
  destruct (astep_ok var (AConcat a b) w pss ls (ls ++ [la ++ lb]) ONothing W Pl) as (w' & pss' & E & W' & _).
  - constructor.
  - cbn [seqs_step]. now rewrite Ea, Eb.
  - intros c l E. rewrite nth_error_app in E. destruct (Nat.ltb_spec c (length ls)).
    + rewrite Forall_forall in Hs. apply Hs. now apply nth_error_In in E.
    + destruct (c - length ls)%nat as [|k]; simpl in E; [inversion E; subst; rewrite app_length; lia|destruct k; discriminate].
  - exists w'. split; auto. split.
    + eapply wrep_shows; [exact W'|]. rewrite nth_error_app2, Nat.sub_diag by lia. reflexivity.
    + intros c l E1. eapply wrep_shows; [exact W'|]. rewrite nth_error_app1; auto. apply nth_error_Some. congruence.
Qed.
Print Assumptions C52_concat.

(** extend by another array appends its elements; all other arrays stay. *)
Theorem C52_extend : forall var w ls a b la lb, reached var w ls -> a <> b -> nth_error ls a = Some la -> nth_error ls b = Some lb ->
  Z.of_nat (length la + length lb) < 1999985 -> Forall (fun l => Z.of_nat (length l) < 1999985) ls ->
  exists w', astep var (AExtend a b) w = Ret w' ONothing /\ shows w' a (la ++ lb) /\
    forall c l, c <> a -> nth_error ls c = Some l -> shows w' c l.
Proof.
  intros var w ls a b la lb Hr Nab Ea Eb Hl Hs. destruct (reached_wrep _ _ _ Hr) as (pss & W & Pl).
  assert (La : (a < length ls)%nat) by (apply nth_error_Some; congruence).
  destruct (astep_ok var (AExtend a b) w pss ls (upd ls a (la ++ lb)) ONothing W Pl) as (w' & pss' & E & W' & _).
  - constructor.
  - cbn [seqs_step]. destruct (Nat.eqb_spec a b); [congruence|]. rewrite Eb. unfold silent, modify. rewrite Ea.
    now rewrite splice_upd.
  - intros c l E. rewrite nth_upd in E by auto. destruct (Nat.eqb_spec a c).
    + inversion E; subst. rewrite app_length. lia.
    + rewrite Forall_forall in Hs. apply Hs. now apply nth_error_In in E.
  - exists w'. split; auto. split.
    + eapply wrep_shows; [exact W'|]. now apply nth_error_upd_eq.
    + intros c l Hc E1. eapply wrep_shows; [exact W'|]. rewrite nth_error_upd_ne; auto.
Qed.
Print Assumptions C52_extend.
Example C52_case : let var := fun _ => k_undefined in exists w, reached var w [[I 1; str 4]; [I 2]].
Proof.
  eexists. exists [ANew; APush 0 (I 1); APush 0 (str 4); ANew; APush 1 (I 2)], (repeat ONothing 5).
  split; [apply plain_hist; reflexivity|]. split; vm_compute; reflexivity.
Qed.

(** Extending an array by itself never succeeds when it has an element: the loop goes on until the
    vector refuses to grow, which it does after enough rounds. *)
Lemma push_any v ps x : rep nat v ps ->
  (exists v', push v x = Exc v') \/
  (exists v', push v x = Ret v' tt /\ rep nat v' (ps ++ [x]) /\ size v' <= Z.max (size v) 5000000).
Proof.
  intros R. pose proof R as (Hs & Hc & Hle & Hn).
  destruct (Z.lt_ge_cases (Z.of_nat (length ps)) 1999984) as [L|L].
  - right. destruct (push_ok nat v ps x R L) as (v' & E & R'). exists v'. split; auto. split; auto.
    unfold push, pushSlot in E. cbv zeta in E.
    destruct (Z.eqb_spec (size v) 0).
    + cbn [size count] in E. rewrite Hc in E. assert (ps = []) as -> by (destruct ps; auto; simpl in *; lia).
      cbn in E. inversion E; subst. cbn [size]. unfold EXPAND. lia.
    + destruct (Z.eqb_spec (size v) (count v)).
      * destruct (Z.leb_spec MAX_ELEMENTS (size v + EXPAND)); [discriminate|].
        destruct (copy_loop _ _ _ _ _) as [b|]; [|discriminate]. cbn [bind] in E. unfold set_item in E.
        destruct (wr _ _ _); [|discriminate]. inversion E; subst. cbn [size]. unfold grown.
        assert (size v < 1999984) by (unfold MAX_ELEMENTS, EXPAND in *; lia).
        assert (size v * 5 / 2 <= 5000000) by (apply Z.div_le_upper_bound; lia). lia.
      * cbn [bind] in E. unfold set_item in E. destruct (wr _ _ _); [|discriminate]. inversion E; subst. cbn [size]. lia.
  - unfold push, pushSlot. cbv zeta. destruct (Z.eqb_spec (size v) 0); [lia|].
    destruct (Z.eqb_spec (size v) (count v)) as [Ef|Ef].
    + destruct (Z.leb_spec MAX_ELEMENTS (size v + EXPAND)) as [H|H]; [|unfold MAX_ELEMENTS, EXPAND in H; lia].
      left. eexists. reflexivity.
    + right. cbn [bind]. cbn [count]. destruct (set_item_ok nat (mkvec (items v) (count v + 1) (size v)) (count v + 1 - 1) x) as (v2 & E2 & C2 & S2 & B2).
      { change (buf (mkvec (items v) (count v + 1) (size v))) with (buf v). lia. }
      exists v2. split; auto. cbn [count size] in C2, S2. rewrite S2. split; [|lia].
      change (buf (mkvec (items v) (count v + 1) (size v))) with (buf v) in B2.
      unfold rep. rewrite C2, S2, B2, upd_length, app_length. simpl. repeat split; try lia.
      intros i Hi. replace (Z.to_nat (count v + 1 - 1)) with (length ps) by lia.
      destruct (Nat.eq_dec i (length ps)) as [->|Ni].
      * rewrite nth_error_upd_eq by lia. rewrite nth_error_app2, Nat.sub_diag by lia. reflexivity.
      * rewrite nth_error_upd_ne by lia. rewrite Hn by lia. now rewrite nth_error_app1 by lia.
Qed.
Lemma arr_push_any m v ps l var x : arrep m v ps l ->
  (exists s', a_push var (mka m v) x = Exc s') \/
  (exists m' v' ps', a_push var (mka m v) x = Ret (mka m' v') tt /\ arrep m' v' ps' (l ++ [stored var x]) /\
     size v' <= Z.max (size v) 5000000).
Proof.
  intros A. pose proof A as (R & N & F).
  destruct (push_any v ps (length m) R) as [(v' & E)|(v' & E & R' & S')].
  - left. unfold a_push, a_newSlot. cbn [mem arr]. rewrite E. eexists. reflexivity.
  - right. unfold a_push, a_newSlot. cbn [mem arr]. rewrite E. cbn [lift bind]. unfold a_store. cbn [mem arr].
    rewrite load_new. eexists _, _, (ps ++ [length m]). split; [reflexivity|]. split; auto.
    split; [exact R'|]. split.
    + replace (ps ++ [length m]) with (firstn (length ps) ps ++ length m :: skipn (length ps) ps).
      * apply NoDup_insert; auto. intros H. apply (arrep_lt _ _ _ _ _ A) in H. lia.
      * rewrite firstn_all, skipn_all. reflexivity.
    + apply Forall2_app.
      * apply (Forall2_weak _ _ _ _ F). intros p y Hp L. pose proof (load_lt _ _ _ L).
        rewrite load_upd_ne by lia. rewrite load_app; auto.
      * constructor; auto. apply load_upd_eq. rewrite app_length. simpl. lia.
Qed.
Lemma self_loop var : forall fuel i m v ps l B, arrep m v ps l -> 0 <= i < Z.of_nat (length l) ->
  size v <= B -> 5000000 <= B ->
  match a_concat_self var fuel i (mka m v) with
  | None => Z.of_nat fuel <= B - Z.of_nat (length l)
  | Some (Exc _) => True
  | Some _ => False
  end.
Proof.
  induction fuel as [|fuel IH]; intros i m v ps l B A Hi Hs HB.
  - cbn [a_concat_self]. cbn [arr]. rewrite (arrep_count _ _ _ _ A).
    destruct (Z.leb_spec (Z.of_nat (length l)) i); [lia|]. pose proof (arrep_size _ _ _ _ A). lia.
  - cbn [a_concat_self]. cbn [arr]. rewrite (arrep_count _ _ _ _ A).
    destruct (Z.leb_spec (Z.of_nat (length l)) i); [lia|].
    destruct (nth_error l (Z.to_nat i)) as [x|] eqn:Ex; [|apply nth_error_None in Ex; lia].
    destruct (elem_at m v ps l i x A) as (p & _ & _ & L & P).
    { unfold get_at. destruct (Z.ltb_spec i 0); [lia|auto]. }
    rewrite P. cbn [bind]. unfold a_load. cbn [mem]. rewrite L. cbn [bind].
    destruct (arr_push_any m v ps l var x A) as [(s' & E)|(m' & v' & ps' & E & A' & S')]; rewrite E; auto.
    specialize (IH (i + 1) m' v' ps' (l ++ [stored var x]) B A').
    rewrite app_length in IH. cbn [length] in IH.
    assert (H1 : 0 <= i + 1 < Z.of_nat (length l + 1)) by lia. assert (H2 : size v' <= B) by lia.
    specialize (IH H1 H2 HB). destruct (a_concat_self var fuel (i + 1) (mka m' v')) as [[]|]; auto. lia.
Qed.
Theorem C52_self_extend_refuted : forall var w ls a l v, reached var w ls -> nth_error ls a = Some l -> l <> [] ->
  nth_error (warrs w) a = Some v ->
  (forall fuel s, a_concat_self var fuel 0 (mka (wmem w) v) <> Some (Ret s tt)) /\
  (exists fuel s, a_concat_self var fuel 0 (mka (wmem w) v) = Some (Exc s)).
Proof.
  intros var w ls a l v Hr El Hne Ev. destruct (reached_wrep _ _ _ Hr) as (pss & W & _).
  destruct (wrep_at _ _ _ _ _ W El) as (v' & ps & Ev' & Ep & A). assert (v' = v) as -> by congruence.
  assert (Hpos : 0 < Z.of_nat (length l)) by (destruct l; simpl; [congruence|lia]).
  set (B := Z.max (size v) 5000000). split.
  - intros fuel s E. pose proof (self_loop var fuel 0 _ _ _ _ B A ltac:(lia) ltac:(lia) ltac:(lia)) as H. now rewrite E in H.
  - pose proof (self_loop var (Z.to_nat B) 0 _ _ _ _ B A ltac:(lia) ltac:(lia) ltac:(lia)) as H.
    exists (Z.to_nat B). destruct (a_concat_self var (Z.to_nat B) 0 (mka (wmem w) v)) as [[]|]; try tauto.
    + eauto.
    + lia.
Qed.
Print Assumptions C52_self_extend_refuted.

(** contains *)
Lemma contains_loop h x m v ps l : arrep m v ps l -> (forall e, In e l -> match_elem h x e <> None) ->
  forall n i, (i + n = length l)%nat ->
  a_contains_from h n (Z.of_nat i) (mka m v) x =
    Ret (mka m v) (existsb (fun e => match match_elem h x e with Some b => b | None => false end) (skipn i l)).
Proof.
  intros A H. induction n as [|n IH]; intros i Hi.
  - cbn [a_contains_from]. rewrite skipn_all2 by lia. reflexivity.
  - cbn [a_contains_from].
    destruct (nth_error l i) as [e|] eqn:Ee; [|apply nth_error_None in Ee; lia].
    destruct (elem_at m v ps l (Z.of_nat i) e A) as (p & _ & _ & L & P).
    { unfold get_at. destruct (Z.ltb_spec (Z.of_nat i) 0); [lia|]. now rewrite Nat2Z.id. }
    rewrite P. cbn [bind]. unfold a_load. cbn [mem]. rewrite L. cbn [bind].
    assert (Sk : skipn i l = e :: skipn (S i) l).
    { clear -Ee. revert i Ee; induction l as [|q l IH]; intros [|i] E; simpl in *; try discriminate; [now inversion E|auto]. }
    rewrite Sk. cbn [existsb].
    specialize (H e (nth_error_In _ _ Ee)). destruct (match_elem h x e) as [[]|]; [reflexivity| |congruence].
    cbn [orb]. replace (Z.of_nat i + 1) with (Z.of_nat (S i)) by lia. apply IH. lia.
Qed.
(** All objects held by the elements are alive. *)
Definition alive (h : heap) (l : list stk) : Prop := forall e, In e l -> props e = P_OBJECT -> h (val e) <> None.
Lemma contains_eval h x m v ps l : arrep m v ps l -> Forall plain l -> plain x -> alive h (x :: l) ->
  a_contains h (mka m v) x =
    Ret (mka m v) (existsb (fun e => match match_elem h x e with Some b => b | None => false end) l).
Proof.
  intros A Pl Px Al. unfold a_contains. cbn [arr]. rewrite (arrep_count _ _ _ _ A), Nat2Z.id.
  change 0 with (Z.of_nat 0). rewrite (contains_loop h x m v ps l A); auto.
  intros e He. rewrite Forall_forall in Pl. specialize (Pl e He).
  assert (A1 : props x = P_OBJECT -> h (val x) <> None) by (apply Al; simpl; auto).
  assert (A2 : props e = P_OBJECT -> h (val e) <> None) by (apply Al; simpl; auto).
  unfold match_elem. destruct (_ || _); [discriminate|].
  destruct (Z.eqb_spec (Z.land (props x) (props e)) P_OBJECT) as [E|]; [|discriminate].
  assert (props x = P_OBJECT /\ props e = P_OBJECT) as [E1 E2].
  { clear - E Px Pl. unfold plain in Px, Pl. destruct x as [vx px], e as [ve pe]. cbn [props In] in *.
    destruct Px as [<-|[<-|[<-|[<-|[<-|[<-|[<-|[<-|[]]]]]]]]]; destruct Pl as [<-|[<-|[<-|[<-|[<-|[<-|[<-|[<-|[]]]]]]]]]; try discriminate E; auto. }
  destruct (h (val x)) as [ox|]; [|now apply A1 in E1]. destruct (h (val e)) as [oe|]; [|now apply A2 in E2].
  destruct ox, oe; discriminate.
Qed.

(** An int or a bool is found exactly when it is an element; a string when an element is a string
    with the same text. The array is not changed. *)
Theorem C52_contains : forall h var w ls a l v x b, reached var w ls -> nth_error ls a = Some l ->
  nth_error (warrs w) a = Some v -> alive h (x :: l) ->
  a_contains h (mka (wmem w) v) x = Ret (mka (wmem w) v) b ->
  (forall z, x = elem false (VInt z) -> (b = true <-> In x l)) /\
  (forall c, x = elem false (VBool c) -> (b = true <-> In x l)) /\
  (forall p s, x = str p -> h p = Some (OStr s) -> cbytes s ->
     (forall q t, In (str q) l -> h q = Some (OStr t) -> cbytes t) ->
     (b = true <-> exists q, In (str q) l /\ h q = Some (OStr s))).
Proof.
  intros h var w ls a l v x b Hr El Ev Al E. destruct (reached_wrep _ _ _ Hr) as (pss & W & Pl).
  destruct (wrep_at _ _ _ _ _ W El) as (v' & ps & Ev' & Ep & A). assert (v' = v) as -> by congruence.
  specialize (Pl _ _ El).
  assert (Ex : plain x -> b = existsb (fun e => match match_elem h x e with Some b => b | None => false end) l).
  { intros Px. rewrite (contains_eval h x _ _ _ _ A Pl Px Al) in E. now inversion E. }
  assert (K : forall e, In e l -> plain e) by (rewrite Forall_forall in Pl; auto).
  split; [|split].
  - intros z ->. rewrite Ex by (unfold plain; cbn; tauto). rewrite existsb_exists. split.
    + intros (e & He & Hm). specialize (K e He). destruct e as [ve pe]. unfold plain in K. cbn [props In] in K.
      destruct K as [<-|[<-|[<-|[<-|[<-|[<-|[<-|[<-|[]]]]]]]]]; try discriminate Hm.
      change (match_elem h (elem false (VInt z)) (Stk ve P_INT)) with (Some (ve =? z)) in Hm. cbn in Hm. apply Z.eqb_eq in Hm. now subst.
    + intros Hi. exists (elem false (VInt z)). split; auto.
      change (match_elem h (elem false (VInt z)) (elem false (VInt z))) with (Some (z =? z)). cbv iota. apply Z.eqb_refl.
  - intros c ->. rewrite Ex by (unfold plain; cbn; tauto). rewrite existsb_exists. split.
    + intros (e & He & Hm). specialize (K e He). destruct e as [ve pe]. unfold plain in K. cbn [props In] in K.
      destruct K as [<-|[<-|[<-|[<-|[<-|[<-|[<-|[<-|[]]]]]]]]]; try discriminate Hm.
      change (match_elem h (elem false (VBool c)) (Stk ve P_BOOL)) with (Some (ve =? Z.b2z c)) in Hm. cbn in Hm. apply Z.eqb_eq in Hm. now subst.
    + intros Hi. exists (elem false (VBool c)). split; auto.
      change (match_elem h (elem false (VBool c)) (elem false (VBool c))) with (Some (Z.b2z c =? Z.b2z c)). cbv iota. apply Z.eqb_refl.
  - intros p s -> Hp Hs Ht. rewrite Ex by (unfold plain; cbn; tauto). rewrite existsb_exists.
    assert (Hm : forall q, match_elem h (str p) (str q) =
      match h q with Some (OStr t) => Some (c_strcmp s t =? 0) | Some _ => Some false | None => None end).
    { intros q. unfold match_elem. cbn [props val str]. change (Z.land P_OBJECT P_OBJECT) with P_OBJECT.
      cbn [Z.eqb orb]. change (P_OBJECT =? P_BOOL) with false. change (P_OBJECT =? P_INT) with false.
      change (P_OBJECT =? P_FLOAT) with false. change (P_OBJECT =? P_OBJECT) with true. cbv iota. cbn [orb]. rewrite Hp.
      destruct (h q) as [[]|]; reflexivity. }
    split.
    + intros (e & He & M). specialize (K e He). destruct e as [ve pe]. unfold plain in K. cbn [props In] in K.
      destruct K as [<-|[<-|[<-|[<-|[<-|[<-|[<-|[<-|[]]]]]]]]]; try discriminate M.
      change (Stk ve P_OBJECT) with (str ve) in *. rewrite Hm in M. destruct (h ve) as [[t| | |]|] eqn:Eq; try discriminate M.
      apply Z.eqb_eq in M. apply strcmp_eq in M; eauto. subst t. eauto.
    + intros (q & Hq & Eq). exists (str q). split; auto. rewrite Hm, Eq.
      assert (c_strcmp s s = 0) as -> by (now apply strcmp_eq). reflexivity.
Qed.
Print Assumptions C52_contains.

(** The answer always exists. *)
Theorem C52_contains_answers : forall h var w ls a l v x, reached var w ls -> nth_error ls a = Some l ->
  nth_error (warrs w) a = Some v -> plain x -> alive h (x :: l) ->
  exists b, a_contains h (mka (wmem w) v) x = Ret (mka (wmem w) v) b.
Proof.
  intros h var w ls a l v x Hr El Ev Px Al. destruct (reached_wrep _ _ _ Hr) as (pss & W & Pl).
  destruct (wrep_at _ _ _ _ _ W El) as (v' & ps & Ev' & Ep & A). assert (v' = v) as -> by congruence.
  rewrite (contains_eval h x _ _ _ _ A (Pl _ _ El) Px Al). eauto.
Qed.
Print Assumptions C52_contains_answers.

(** But an int equal to a float element is not found, and undefined and null are never found. *)
Lemma none_found h x l m v ps : arrep m v ps l -> Forall plain l -> plain x -> alive h (x :: l) ->
  (forall e, In e l -> match_elem h x e = Some false) -> a_contains h (mka m v) x = Ret (mka m v) false.
Proof.
  intros A Pl Px Al H. rewrite (contains_eval h x _ _ _ _ A Pl Px Al). f_equal.
  apply not_true_is_false. rewrite existsb_exists. intros (e & He & M). now rewrite (H e He) in M.
Qed.
Theorem C52_contains_number_refuted : forall h text var w ls a l v z, small z -> reached var w ls ->
  nth_error ls a = Some l -> nth_error (warrs w) a = Some v -> l = [Stk (enc (of_int z)) P_FLOAT] ->
  lang_equal h text (elem false (VInt z)) (Stk (enc (of_int z)) P_FLOAT) /\
  a_contains h (mka (wmem w) v) (elem false (VInt z)) = Ret (mka (wmem w) v) false.
Proof.
  intros h text var w ls a l v z Hz Hr El Ev ->. destruct (reached_wrep _ _ _ Hr) as (pss & W & Pl).
  destruct (wrep_at _ _ _ _ _ W El) as (v' & ps & Ev' & Ep & A). assert (v' = v) as -> by congruence. split.
  - unfold lang_equal. pose proof (eq_red h text false false (VInt z) (VFloat (enc (of_int z)))) as H.
    cbn [elem] in H. change (P_FLOAT + ro_bit false) with P_FLOAT in H. cbn [elem]. rewrite H.
    cbn [eq_spec]. rewrite dec_enc by (now apply of_int_valid).
    rewrite feqb_refl; [reflexivity|]. intros C. unfold small in Hz.
    destruct z as [|q|q]; [discriminate C|rewrite of_int_pos in C by lia|rewrite of_int_neg in C by lia]; discriminate C.
  - apply (none_found h _ _ _ _ _ A); eauto.
    + unfold plain. cbn. tauto.
    + intros e [<-|[<-|[]]]; discriminate.
    + intros e [<-|[]]. reflexivity.
Qed.
Print Assumptions C52_contains_number_refuted.
Theorem C52_contains_undefined_refuted : forall h text var w ls a l v x, reached var w ls ->
  nth_error ls a = Some l -> nth_error (warrs w) a = Some v -> alive h l -> x = elem false VUndef \/ x = elem false VNull ->
  lang_equal h text x x /\ a_contains h (mka (wmem w) v) x = Ret (mka (wmem w) v) false.
Proof.
  intros h text var w ls a l v x Hr El Ev Al Hx. destruct (reached_wrep _ _ _ Hr) as (pss & W & Pl).
  destruct (wrep_at _ _ _ _ _ W El) as (v' & ps & Ev' & Ep & A). assert (v' = v) as -> by congruence.
  specialize (Pl _ _ El). split.
  - destruct Hx as [-> | ->]; reflexivity.
  - apply (none_found h _ _ _ _ _ A); auto.
    + destruct Hx as [-> | ->]; unfold plain; cbn; tauto.
    + intros e [<-|He]; [|auto]. destruct Hx as [-> | ->]; discriminate.
    + intros e He. rewrite Forall_forall in Pl. specialize (Pl e He). destruct e as [ve pe]. unfold plain in Pl. cbn [props In] in Pl.
      destruct Hx as [-> | ->]; destruct Pl as [<-|[<-|[<-|[<-|[<-|[<-|[<-|[<-|[]]]]]]]]]; reflexivity.
Qed.
Print Assumptions C52_contains_undefined_refuted.

(** ** C53 *)
(** Elements for which the comparison of arrays agrees with [==]: ints, bools, strings, and floats
    other than NaN and the negative zero. *)
Inductive comparable (h : heap) : stk -> Prop :=
| cmp_int z : comparable h (elem false (VInt z))
| cmp_bool b : comparable h (elem false (VBool b))
| cmp_float w : w64 w -> dec w <> S754_nan -> w <> - 2 ^ 63 -> comparable h (elem false (VFloat w))
| cmp_str p s : h p = Some (OStr s) -> comparable h (str p).

Lemma wkey_inj a b : w64 a -> w64 b -> a <> - 2 ^ 63 -> b <> - 2 ^ 63 -> wkey a = wkey b -> a = b.
Proof.
  unfold w64, wkey, wsgn, wmag. intros. destruct (Z.ltb_spec a 0), (Z.ltb_spec b 0); lia.
Qed.
Lemma feqb_words a b : w64 a -> w64 b -> dec a <> S754_nan -> dec b <> S754_nan -> a <> - 2 ^ 63 -> b <> - 2 ^ 63 ->
  feqb (dec a) (dec b) = (a =? b).
Proof.
  intros Ha Hb Na Nb Za Zb. unfold feqb, SFeqb. rewrite compare_key; auto.
  destruct (Z.eqb_spec a b) as [->|N].
  - now rewrite Z.compare_refl.
  - destruct (Z.compare_spec (wkey a) (wkey b)) as [E| |]; auto. exfalso. apply N. now apply wkey_inj.
Qed.
Lemma push_bool_true c : push_bool c = Push (Stk 1 P_BOOL) <-> c = true.
Proof. destruct c; cbn; split; intros H; try reflexivity; discriminate H. Qed.
Lemma equal_elem_ok h text x y : comparable h x -> comparable h y ->
  exists b, equal_elem h x y = Some b /\ (b = true <-> lang_equal h text x y).
Proof.
  intros X Y. unfold lang_equal. destruct X as [x|x|x Hx Nx Zx|p s Hp], Y as [y|y|y Hy Ny Zy|q t Hq].
  all: try (rewrite eq_red; cbn [eq_spec opres_of]).
  - exists (x =? y). split; [reflexivity|]. now rewrite push_bool_true.
  - exists false. split; [reflexivity|]. split; discriminate.
  - exists (feqb (of_int x) (dec y)). split; [reflexivity|]. now rewrite push_bool_true.
  - exists false. split; [reflexivity|]. split; [discriminate|]. unfold op_cmp, obj_of.
    cbn [elem props val str]. change (P_INT + ro_bit false) with P_INT.
    change (has P_INT (Z.lor P_OBJECT P_OBJECT_IN_CONTAINER)) with false. change (has P_OBJECT (Z.lor P_OBJECT P_OBJECT_IN_CONTAINER)) with true.
    cbv iota. rewrite Hq. intros H; exfalso; revert H; exact (meta2_nopush h text (cmp_meta CEq) (elem false (VInt x)) (str q) _ ltac:(discriminate)).
  - exists false. split; [reflexivity|]. split; discriminate.
  - exists (Z.b2z x =? Z.b2z y). split; [reflexivity|]. rewrite push_bool_true. now destruct x, y.
  - exists false. split; [reflexivity|]. split; discriminate.
  - exists false. split; [reflexivity|]. split; [discriminate|]. unfold op_cmp, obj_of.
    cbn [elem props val str]. change (P_BOOL + ro_bit false) with P_BOOL.
    change (has P_BOOL (Z.lor P_OBJECT P_OBJECT_IN_CONTAINER)) with false. change (has P_OBJECT (Z.lor P_OBJECT P_OBJECT_IN_CONTAINER)) with true.
    cbv iota. rewrite Hq. intros H; exfalso; revert H; exact (meta2_nopush h text (cmp_meta CEq) (elem false (VBool x)) (str q) _ ltac:(discriminate)).
  - exists (feqb (dec x) (of_int y)). split; [reflexivity|]. now rewrite push_bool_true.
  - exists false. split; [reflexivity|]. split; discriminate.
  - exists (x =? y). split; [reflexivity|]. rewrite push_bool_true. now rewrite feqb_words.
  - exists false. split; [reflexivity|]. split; [discriminate|]. unfold op_cmp, obj_of.
    cbn [elem props val str]. change (P_FLOAT + ro_bit false) with P_FLOAT.
    change (has P_FLOAT (Z.lor P_OBJECT P_OBJECT_IN_CONTAINER)) with false. change (has P_OBJECT (Z.lor P_OBJECT P_OBJECT_IN_CONTAINER)) with true.
    cbv iota. rewrite Hq. intros H; exfalso; revert H; exact (meta2_nopush h text (cmp_meta CEq) (elem false (VFloat x)) (str q) _ ltac:(discriminate)).
  - exists false. split; [reflexivity|]. split; [discriminate|]. unfold op_cmp, obj_of.
    cbn [elem props val str]. change (P_INT + ro_bit false) with P_INT.
    change (has P_INT (Z.lor P_OBJECT P_OBJECT_IN_CONTAINER)) with false. change (has P_OBJECT (Z.lor P_OBJECT P_OBJECT_IN_CONTAINER)) with true.
    cbv iota. rewrite Hp. intros H; exfalso; revert H; exact (meta2_nopush h text (cmp_meta CEq) (str p) (elem false (VInt y)) _ ltac:(discriminate)).
  - exists false. split; [reflexivity|]. split; [discriminate|]. unfold op_cmp, obj_of.
    cbn [elem props val str]. change (P_BOOL + ro_bit false) with P_BOOL.
    change (has P_BOOL (Z.lor P_OBJECT P_OBJECT_IN_CONTAINER)) with false. change (has P_OBJECT (Z.lor P_OBJECT P_OBJECT_IN_CONTAINER)) with true.
    cbv iota. rewrite Hp. intros H; exfalso; revert H; exact (meta2_nopush h text (cmp_meta CEq) (str p) (elem false (VBool y)) _ ltac:(discriminate)).
  - exists false. split; [reflexivity|]. split; [discriminate|]. unfold op_cmp, obj_of.
    cbn [elem props val str]. change (P_FLOAT + ro_bit false) with P_FLOAT.
    change (has P_FLOAT (Z.lor P_OBJECT P_OBJECT_IN_CONTAINER)) with false. change (has P_OBJECT (Z.lor P_OBJECT P_OBJECT_IN_CONTAINER)) with true.
    cbv iota. rewrite Hp. intros H; exfalso; revert H; exact (meta2_nopush h text (cmp_meta CEq) (str p) (elem false (VFloat y)) _ ltac:(discriminate)).
  - exists (c_strcmp s t =? 0). split.
    + unfold equal_elem, obj_of. cbn [props val str]. change (Z.lor P_OBJECT P_OBJECT) with P_OBJECT.
      change (P_OBJECT =? P_INT) with false. change (P_OBJECT =? P_FLOAT) with false. change (P_OBJECT =? P_BOOL) with false.
      change (P_OBJECT =? Z.lor P_INT P_FLOAT) with false. change (P_OBJECT =? P_OBJECT) with true. cbn [orb].
      change (has P_OBJECT (Z.lor P_OBJECT P_OBJECT_IN_CONTAINER)) with true. cbv iota. now rewrite Hp, Hq.
    + rewrite (str_cmp_red h text CEq p q s t Hp Hq), push_bool_true. unfold cmp_strings, cmpZ. tauto.
Qed.
Lemma equal_loop h text m v1 ps1 l1 v2 ps2 l2 : arrep m v1 ps1 l1 -> arrep m v2 ps2 l2 -> length l1 = length l2 ->
  Forall (comparable h) l1 -> Forall (comparable h) l2 -> forall n i, (i + n = length l1)%nat ->
  exists b, a_equal_from h n (Z.of_nat i) m v1 v2 = Ret tt b /\ (b = true <-> Forall2 (lang_equal h text) (skipn i l1) (skipn i l2)).
Proof.
  intros A1 A2 EL C1 C2. induction n as [|n IH]; intros i Hi.
  - exists true. split; [reflexivity|]. rewrite !skipn_all2 by lia. split; auto.
  - cbn [a_equal_from].
    destruct (nth_error l1 i) as [x|] eqn:Ex; [|apply nth_error_None in Ex; lia].
    destruct (nth_error l2 i) as [y|] eqn:Ey; [|apply nth_error_None in Ey; lia].
    destruct (elem_at m v1 ps1 l1 (Z.of_nat i) x A1) as (p & _ & _ & L1 & P1).
    { unfold get_at. destruct (Z.ltb_spec (Z.of_nat i) 0); [lia|]. now rewrite Nat2Z.id. }
    destruct (elem_at m v2 ps2 l2 (Z.of_nat i) y A2) as (q & _ & _ & L2 & P2).
    { unfold get_at. destruct (Z.ltb_spec (Z.of_nat i) 0); [lia|]. now rewrite Nat2Z.id. }
    rewrite P1, P2. cbn [bind]. unfold a_load. cbn [mem]. rewrite L1, L2.
    assert (Sk : forall (l : list stk) e, nth_error l i = Some e -> skipn i l = e :: skipn (S i) l).
    { clear. intros l. revert i. induction l as [|z l IH]; intros [|i] e E; simpl in *; try discriminate; [now inversion E|now apply IH]. }
    rewrite (Sk _ _ Ex), (Sk _ _ Ey).
    rewrite Forall_forall in C1, C2.
    destruct (equal_elem_ok h text x y (C1 x (nth_error_In _ _ Ex)) (C2 y (nth_error_In _ _ Ey))) as (b & E & Hb).
    rewrite E. destruct b.
    + destruct (IH (S i) ltac:(lia)) as (b & E2 & H2). replace (Z.of_nat i + 1) with (Z.of_nat (S i)) by lia.
      exists b. split; auto. rewrite H2. split; [constructor; tauto|now inversion 1].
    + exists false. split; auto. split; [discriminate|]. inversion 1; subst. apply Hb. auto.
Qed.
Theorem C53_equal_partial : forall h text var w ls a b la lb va vb, reached var w ls ->
  nth_error ls a = Some la -> nth_error ls b = Some lb -> nth_error (warrs w) a = Some va -> nth_error (warrs w) b = Some vb ->
  Forall (comparable h) la -> Forall (comparable h) lb ->
  exists c, a_equal h (wmem w) va vb = Ret tt c /\ (c = true <-> Forall2 (lang_equal h text) la lb).
Proof.
  intros h text var w ls a b la lb va vb Hr Ea Eb Va Vb Ca Cb. destruct (reached_wrep _ _ _ Hr) as (pss & W & _).
  destruct (wrep_at _ _ _ _ _ W Ea) as (v1 & p1 & E1 & _ & A1). assert (v1 = va) as -> by congruence.
  destruct (wrep_at _ _ _ _ _ W Eb) as (v2 & p2 & E2 & _ & A2). assert (v2 = vb) as -> by congruence.
  unfold a_equal. rewrite (arrep_count _ _ _ _ A1), (arrep_count _ _ _ _ A2).
  destruct (Z.eqb_spec (Z.of_nat (length la)) (Z.of_nat (length lb))) as [E|N].
  - rewrite Nat2Z.id. destruct (equal_loop h text _ _ _ _ _ _ _ A1 A2 ltac:(lia) Ca Cb (length la) 0 eq_refl) as (c & Ec & Hc).
    exists c. split; auto.
  - exists false. split; auto. split; [discriminate|]. intros F. apply Forall2_length in F. lia.
Qed.
Print Assumptions C53_equal_partial.
Example C53_case : let h := fun p => if (p =? 4) || (p =? 5) then Some (OStr [104; 105]) else None in
  Forall (comparable h) [I 1; str 4; Stk (enc (of_int 2)) P_FLOAT] /\ Forall (comparable h) [I 1; str 5; I 2].
Proof.
  split; repeat apply Forall_cons; try apply Forall_nil; try exact (cmp_int _ _);
    try (eapply cmp_str; reflexivity).
  apply (cmp_float _ (enc (of_int 2))); [split; vm_compute; congruence|vm_compute; congruence|vm_compute; congruence].
Qed.

(** Undefined and null are equal to themselves, but not as elements of arrays; the NaN is not equal
    to itself but two arrays with the same NaN are; the two zeros are equal but not in arrays. *)
Lemma equal_single h m v1 ps1 x v2 ps2 y b : arrep m v1 ps1 [x] -> arrep m v2 ps2 [y] -> equal_elem h x y = Some b ->
  a_equal h m v1 v2 = Ret tt b.
Proof.
  intros A1 A2 E. unfold a_equal. rewrite (arrep_count _ _ _ _ A1), (arrep_count _ _ _ _ A2). cbn [length].
  change (Z.of_nat 1 =? Z.of_nat 1) with true. cbv iota. rewrite Nat2Z.id. cbn [a_equal_from].
  destruct (elem_at m v1 ps1 [x] 0 x A1 eq_refl) as (p & _ & _ & L1 & P1).
  destruct (elem_at m v2 ps2 [y] 0 y A2 eq_refl) as (q & _ & _ & L2 & P2).
  rewrite P1, P2. cbn [bind]. unfold a_load. cbn [mem]. rewrite L1, L2, E. now destruct b.
Qed.
Theorem C53_undefined_refuted : forall h text var w ls a b va vb x, x = elem false VUndef \/ x = elem false VNull ->
  reached var w ls -> nth_error ls a = Some [x] -> nth_error ls b = Some [x] ->
  nth_error (warrs w) a = Some va -> nth_error (warrs w) b = Some vb ->
  lang_equal h text x x /\ a_equal h (wmem w) va vb = Ret tt false.
Proof.
  intros h text var w ls a b va vb x Hx Hr Ea Eb Va Vb. destruct (reached_wrep _ _ _ Hr) as (pss & W & _).
  destruct (wrep_at _ _ _ _ _ W Ea) as (v1 & p1 & E1 & _ & A1). assert (v1 = va) as -> by congruence.
  destruct (wrep_at _ _ _ _ _ W Eb) as (v2 & p2 & E2 & _ & A2). assert (v2 = vb) as -> by congruence.
  split; [destruct Hx as [-> | ->]; reflexivity|]. apply (equal_single h _ _ _ _ _ _ _ _ A1 A2). destruct Hx as [-> | ->]; reflexivity.
Qed.
Print Assumptions C53_undefined_refuted.
Theorem C53_nan_refuted : forall h text var w ls a b va vb n, dec n = S754_nan ->
  reached var w ls -> nth_error ls a = Some [elem false (VFloat n)] -> nth_error ls b = Some [elem false (VFloat n)] ->
  nth_error (warrs w) a = Some va -> nth_error (warrs w) b = Some vb ->
  ~ lang_equal h text (elem false (VFloat n)) (elem false (VFloat n)) /\ a_equal h (wmem w) va vb = Ret tt true.
Proof.
  intros h text var w ls a b va vb n Hn Hr Ea Eb Va Vb. destruct (reached_wrep _ _ _ Hr) as (pss & W & _).
  destruct (wrep_at _ _ _ _ _ W Ea) as (v1 & p1 & E1 & _ & A1). assert (v1 = va) as -> by congruence.
  destruct (wrep_at _ _ _ _ _ W Eb) as (v2 & p2 & E2 & _ & A2). assert (v2 = vb) as -> by congruence.
  split.
  - unfold lang_equal. rewrite eq_red. cbn [eq_spec]. rewrite Hn. discriminate.
  - apply (equal_single h _ _ _ _ _ _ _ _ A1 A2).
    change (equal_elem h (elem false (VFloat n)) (elem false (VFloat n))) with (Some (n =? n)). now rewrite Z.eqb_refl.
Qed.
Print Assumptions C53_nan_refuted.
Theorem C53_zero_refuted : forall h text var w ls a b va vb, let z := enc (S754_zero false) in let z' := enc (S754_zero true) in
  reached var w ls -> nth_error ls a = Some [elem false (VFloat z)] -> nth_error ls b = Some [elem false (VFloat z')] ->
  nth_error (warrs w) a = Some va -> nth_error (warrs w) b = Some vb ->
  lang_equal h text (elem false (VFloat z)) (elem false (VFloat z')) /\ a_equal h (wmem w) va vb = Ret tt false.
Proof.
  intros h text var w ls a b va vb z z' Hr Ea Eb Va Vb. destruct (reached_wrep _ _ _ Hr) as (pss & W & _).
  destruct (wrep_at _ _ _ _ _ W Ea) as (v1 & p1 & E1 & _ & A1). assert (v1 = va) as -> by congruence.
  destruct (wrep_at _ _ _ _ _ W Eb) as (v2 & p2 & E2 & _ & A2). assert (v2 = vb) as -> by congruence.
  split; [reflexivity|]. apply (equal_single h _ _ _ _ _ _ _ _ A1 A2). reflexivity.
Qed.
Print Assumptions C53_zero_refuted.
Example C53_refuted_case : let var := fun _ => k_undefined in
  exists w, reached var w [[elem false VNull]; [elem false VNull]; [elem false (VFloat (enc (S754_zero false)))]; [elem false (VFloat (enc (S754_zero true)))]].
Proof.
  eexists. exists [ANew; APush 0 (elem false VNull); ANew; APush 1 (elem false VNull); ANew; APush 2 (elem false (VFloat (enc (S754_zero false))));
    ANew; APush 3 (elem false (VFloat (enc (S754_zero true))))], (repeat ONothing 8).
  split; [apply plain_hist; reflexivity|]. split; vm_compute; reflexivity.
Qed.
