(** Properties C123-C128: elements, fields and characters. *)
From Coq Require Import List ZArith Bool Lia Arith SpecFloat.
From Verif Require Import Base FloatModel StringModel ValueModel ValueProofs AccessModel AccessSpec AccessProofs.
Import ListNotations.
Local Open Scope Z_scope.

(** ** C123: programs of assignments, literals and accesses *)

(** Such a program does what the reference semantics says, for texts without escapes, indices
    that are [int]s and characters below 128; where that says error, it throws. *)
Theorem C123_programs_partial : forall n ss s',
  DoesAll (shows (start n)) ss s' -> exists m', run (start n) ss = Ok m' /\ shows m' = s'.
Proof. intros n ss s' D. destruct (does_all_sound _ _ _ (wf_start n) D) as [m' [E [S _]]]. eauto. Qed.

Theorem C123_errors_partial : forall n ss s' st rest,
  DoesAll (shows (start n)) ss s' -> DoesFail s' st -> run (start n) (ss ++ st :: rest) = Thr.
Proof.
  intros n ss s' st rest D F. destruct (does_all_sound _ _ _ (wf_start n) D) as [m' [E [S W]]]. subst s'.
  clear D. revert E. generalize (start n). induction ss as [|a ss IH]; intros m E; cbn [app run] in *.
  - injection E as ->. rewrite (does_fail_sound _ _ W F). reflexivity.
  - apply rbind_ok in E. destruct E as [m1 [E1 E]]. rewrite E1. cbn [rbind]. apply IH, E.
Qed.

(** A text with a backslash in front of a character is not the one that a literal holds. *)
Theorem C123_text_in_a_literal_refuted : forall a e b, let t := a ++ 92 :: e :: b in
  exists m' u, run (start 1) [SSet (DVar 0) (ELit (LPush LArr (EK (KS t))))] = Ok m' /\
    obs m' 0 0 = Some (VRef 1) /\ nth_error (shows m') 1 = Some (Cont None [VText u]) /\ u <> t.
Proof.
  intros a e b t. eexists. exists (set_text t). split; [reflexivity|]. split; [reflexivity|]. split; [reflexivity|].
  intros H. pose proof (set_text_escape a e b) as L. fold t in L. rewrite H in L. lia.
Qed.

(** A derivation for concrete states. *)
Ltac text_tidy := let a := fresh in let E := fresh in
  intros a ? ? E; repeat (destruct a as [|? a]; [discriminate E|injection E as ? E]); destruct a; discriminate E.
Ltac changes := split; [reflexivity|]; split; [intros d D; do 4 (destruct d as [|d]; [first [reflexivity|exfalso; apply D; reflexivity]|]); destruct d; reflexivity|];
  eexists _, _, _; split; [reflexivity|]; split; [reflexivity|]; cbn [List.length]; split; [lia|]; split; [reflexivity|]; split; [reflexivity|];
  intros j J; do 4 (destruct j as [|j]; [first [reflexivity|exfalso; apply J; reflexivity]|]); destruct j; reflexivity.
Ltac adds := split; [reflexivity|]; split; [intros d D; do 4 (destruct d as [|d]; [first [reflexivity|exfalso; apply D; reflexivity]|]); destruct d; reflexivity|].

(** [x0 = ["ab"]; x1 = x0; x1[0][1] = 65; x0[0] = {k: 7}; x0[0]["n"] = x1[0]["k"]] *)
Definition program : list stmt :=
  [ SSet (DVar 0) (ELit (LPush LArr (EK (KS [97; 98]))));
    SSet (DVar 1) (EVar 0);
    SSet (DIdx (EIdx (EVar 1) (EK (KI 0))) (EK (KI 1))) (EK (KI 65));
    SSet (DVar 2) (EIdx (EVar 0) (EK (KI 0)));
    SSet (DIdx (EVar 0) (EK (KI 0))) (ELit (LField LObj [107] (EK (KI 7))));
    SSet (DIdx (EIdx (EVar 0) (EK (KI 0))) (EK (KS [110]))) (EIdx (EIdx (EVar 1) (EK (KI 0))) (EK (KS [107]))) ].
Example C123_case : DoesAll (shows (start 3)) program
  [ Cont None [VRef 1; VRef 1; VText [97; 65]]; Cont None [VRef 2]; Cont (Some [[107]; [110]]) [VI 7; VI 7] ] /\
  DoesFail [ Cont None [VRef 1; VRef 1; VText [97; 65]]; Cont None [VRef 2]; Cont (Some [[107]; [110]]) [VI 7; VI 7] ]
    (SSet (DVar 0) (EIdx (EVar 1) (EK (KI 1)))).
Proof.
  split.
  - apply DA_cons with (s1 := [Cont None [VRef 1; VU; VU]; Cont None [VText [97; 98]]]).
    { eapply D_var; [apply M_lit; eapply K_push; [apply K_arr|apply M_const|text_tidy|]|exact I|].
      - instantiate (1 := [Cont None [VU; VU; VU]; Cont None [VText [97; 98]]]). adds. exists []. split; reflexivity.
      - changes. }
    apply DA_cons with (s1 := [Cont None [VRef 1; VRef 1; VU]; Cont None [VText [97; 98]]]).
    { eapply D_var; [eapply M_var; reflexivity|exact I|]. changes. }
    apply DA_cons with (s1 := [Cont None [VRef 1; VRef 1; VU]; Cont None [VText [97; 65]]]).
    { eapply (D_char _ _ _ 65 _ _ 1 0 _ _ 1); [apply M_const|lia|
        eapply (P_elem _ _ _ _ _ 1 0 [VText [97; 98]]); [eapply M_var; reflexivity|apply M_const|reflexivity|cbn; lia|unfold fits32; lia]
        |apply M_const|reflexivity|reflexivity|cbn; lia|changes]. }
    apply DA_cons with (s1 := [Cont None [VRef 1; VRef 1; VText [97; 65]]; Cont None [VText [97; 65]]]).
    { eapply D_var; [eapply (M_elem _ _ _ _ _ 1 0 [VText [97; 65]]); [eapply M_var; reflexivity|apply M_const|reflexivity|lia|unfold fits32; lia|reflexivity]
        |text_tidy|changes]. }
    apply DA_cons with (s1 := [Cont None [VRef 1; VRef 1; VText [97; 65]]; Cont None [VRef 2]; Cont (Some [[107]]) [VI 7]]).
    { eapply (D_elem _ _ _ (VRef 2) _ _ 1 _ _ 0); [|exact I|eapply M_var|apply M_const| |lia|unfold fits32; lia|].
      { apply M_lit. eapply K_field; [apply K_obj|apply M_const|exact I|].
        instantiate (1 := [Cont None [VRef 1; VRef 1; VText [97; 65]]; Cont None [VText [97; 65]]; Cont (Some [[107]]) [VI 7]]).
        adds. exists [], []. split; [reflexivity|]. split; [intros []|reflexivity]. }
      1-3: reflexivity. changes. }
    eapply DA_cons; [|apply DA_nil].
    eapply (D_new _ _ _ (VI 7) _ _ 2 _ _ [110]); [|exact I| |apply M_const|].
    { eapply (M_field _ _ _ _ _ 2 [107] [[107]] [VI 7] 0);
        [eapply (M_elem _ _ _ _ _ 1 0 [VRef 2]); [eapply M_var; reflexivity|apply M_const|reflexivity|lia|unfold fits32; lia|reflexivity]
        |apply M_const|reflexivity|]. split; [reflexivity|]. split; [lia|reflexivity]. }
    { eapply (M_elem _ _ _ _ _ 1 0 [VRef 2]); [eapply M_var; reflexivity|apply M_const|reflexivity|lia|unfold fits32; lia|reflexivity]. }
    adds. exists [[107]], [VI 7]. split; [reflexivity|]. split; [intros [H|[]]; discriminate|reflexivity].
  - apply DF_rhs. eapply (F_range _ _ _ _ _ _ 1); [eapply M_var; reflexivity|apply M_const|reflexivity|unfold fits32; lia|cbn; lia].
Qed.

(** ** C124: elements of arrays *)

(** A variable that holds an array with elements [vs]. *)
Definition has_array (m : mem) (x c : nat) (vs : list value) : Prop :=
  obs m 0 x = Some (VRef c) /\ nth_error (shows m) c = Some (Cont None vs).

Lemma has_array_inv m x c vs : has_array m x c vs ->
  get_cell m 0 x = Some (CRef c) /\ exists cs, nth_error (conts m) c = Some (Cont None cs) /\ vs = map (shown (strs m)) cs.
Proof.
  intros [H K]. unfold obs in H. destruct (get_cell m 0 x) as [y|] eqn:G; [|discriminate]. injection H as H. apply shown_ref in H. subst y.
  split; [reflexivity|]. exact (shows_some _ _ _ _ K).
Qed.
Lemma read_const m x y k : get_cell m 0 x = Some y ->
  eval m (EIdx (EVar x) (EK k)) = do v <- load_item (fst (load_const m k)) y (snd (load_const m k)); Ok (fst (load_const m k), v).
Proof. intros G. cbn [eval]. rewrite G. reflexivity. Qed.

Theorem C124_element_partial : forall m x c vs z, reached m -> has_array m x c vs -> fits32 z ->
  (forall v, 0 <= z -> nth_error vs (Z.to_nat z) = Some v ->
     exists y, eval m (EIdx (EVar x) (EK (KI z))) = Ok (m, y) /\ shown (strs m) y = v) /\
  (~ 0 <= z < Z.of_nat (List.length vs) -> eval m (EIdx (EVar x) (EK (KI z))) = Thr).
Proof.
  intros m x c vs z _ H F. destruct (has_array_inv _ _ _ _ H) as [G [cs [Hc ->]]]. split.
  - intros v Hz Hv. rewrite nth_error_map in Hv. destruct (nth_error cs (Z.to_nat z)) as [y|] eqn:N; [|discriminate]. injection Hv as <-.
    exists y. split; [|reflexivity]. rewrite (read_const _ _ _ _ G). cbn [load_const fst snd]. unfold load_item.
    rewrite (access_array_in m c cs z Hc F) by (apply nth_error_lt in N; lia). cbn [rbind]. unfold get_cell. rewrite Hc. cbn [cells]. rewrite N. reflexivity.
  - rewrite map_length. intros N. rewrite (read_const _ _ _ _ G). cbn [load_const fst snd]. rewrite (access_thr_load _ _ _ (access_range m c cs z Hc F N)). reflexivity.
Qed.

(** An index is cut to 32 bits: [a[i + k*2^32]] is element [i]. *)
Theorem C124_index_wraps_refuted : forall m x c vs i k v, reached m -> has_array m x c vs -> fits32 i -> 0 <= i ->
  nth_error vs (Z.to_nat i) = Some v ->
  exists y, eval m (EIdx (EVar x) (EK (KI (i + k * 2 ^ 32)))) = Ok (m, y) /\ shown (strs m) y = v.
Proof.
  intros m x c vs i k v R H F Hi Hv. destruct (C124_element_partial m x c vs i R H F) as [A _]. destruct (A v Hi Hv) as [y [E V]].
  exists y. split; [|exact V]. destruct (has_array_inv _ _ _ _ H) as [G [cs [Hc _]]]. rewrite <- E.
  rewrite (read_const _ _ _ (KI i) G), (read_const _ _ _ (KI (i + k * 2 ^ 32)) G). cbn [load_const fst snd]. unfold load_item, access. rewrite Hc. cbn [rbind].
  replace (int32 (i + k * 2 ^ 32)) with (int32 i); [reflexivity|]. unfold int32. f_equal.
  replace (i + k * 2 ^ 32 + 2 ^ 31) with (i + 2 ^ 31 + k * 2 ^ 32) by lia. rewrite Z_mod_plus_full. reflexivity.
Qed.

(** [whole f z]: the float [f] is the integer [z]. *)
Definition whole (f : f64) (z : Z) : Prop :=
  match f with
  | S754_zero _ => z = 0
  | S754_finite s m e =>
      let n := if s then Zneg m else Zpos m in
      if 0 <=? e then z = n * 2 ^ e else n = z * 2 ^ (- e)
  | _ => False
  end.
Lemma trunc32_whole f z : whole f z -> fits32 z -> trunc32 f = Ok z.
Proof.
  intros W F. destruct f as [s|s| |s m e]; cbn in W; try contradiction.
  - now subst z.
  - unfold trunc32. unfold fits32 in F. destruct (Z.leb_spec 0 e) as [E|E].
    + replace (if s then - (Zpos m * 2 ^ e) else Zpos m * 2 ^ e) with z by (subst z; destruct s; lia).
      rewrite (proj2 (Z.leb_le _ _)), (proj2 (Z.ltb_lt _ _)) by lia. reflexivity.
    + assert (P : 0 < 2 ^ (- e)) by (apply Z.pow_pos_nonneg; lia).
      replace (if s then - (Zpos m / 2 ^ (- e)) else Zpos m / 2 ^ (- e)) with z.
      * rewrite (proj2 (Z.leb_le _ _)), (proj2 (Z.ltb_lt _ _)) by lia. reflexivity.
      * destruct s.
        -- replace (Zpos m) with (- z * 2 ^ (- e)) by lia. rewrite Z.div_mul by lia. lia.
        -- rewrite W, Z.div_mul by lia. reflexivity.
Qed.
(** A float that is an integer is the index this integer is. *)
Theorem C124_whole_float_partial : forall m x c vs f z, reached m -> has_array m x c vs -> fits32 z -> whole f z ->
  (forall v, 0 <= z -> nth_error vs (Z.to_nat z) = Some v ->
     exists y, eval m (EIdx (EVar x) (EK (KF f))) = Ok (m, y) /\ shown (strs m) y = v) /\
  (~ 0 <= z < Z.of_nat (List.length vs) -> eval m (EIdx (EVar x) (EK (KF f))) = Thr).
Proof.
  intros m x c vs f z R H F W. destruct (has_array_inv _ _ _ _ H) as [G [cs [Hc E]]].
  assert (Q : eval m (EIdx (EVar x) (EK (KF f))) = eval m (EIdx (EVar x) (EK (KI z)))).
  { rewrite !(read_const _ _ _ _ G). cbn [load_const fst snd]. unfold load_item, access. rewrite Hc, (trunc32_whole f z W F).
    cbn [rbind]. replace (int32 z) with z; [reflexivity|]. unfold int32. unfold fits32 in F. rewrite Z.mod_small by lia. lia. }
  rewrite Q. exact (C124_element_partial m x c vs z R H F).
Qed.

(** -0.5 *)
Definition minus_half : f64 := S754_finite true (2 ^ 52)%positive (-53).
(** A negative fraction is an index as well, the one of the first element; NaN and infinite
    indices are undefined behaviour, not an error. *)
Theorem C124_float_index_refuted : forall m x c vs, reached m -> has_array m x c vs ->
  (forall v r, vs = v :: r -> exists y, eval m (EIdx (EVar x) (EK (KF minus_half))) = Ok (m, y) /\ shown (strs m) y = v) /\
  eval m (EIdx (EVar x) (EK (KF S754_nan))) = UB /\
  (forall s, eval m (EIdx (EVar x) (EK (KF (S754_infinity s)))) = UB).
Proof.
  intros m x c vs R H. destruct (has_array_inv _ _ _ _ H) as [G [cs [Hc E]]]. split; [|split].
  - intros v r ->. destruct cs as [|y cs]; [discriminate|]. injection E as -> _. exists y. split; [|reflexivity].
    rewrite (read_const _ _ _ _ G). cbn [load_const fst snd]. unfold load_item, access. rewrite Hc.
    replace (trunc32 minus_half) with (Ok 0) by (vm_compute; reflexivity). cbn [rbind List.length]. change (0 <? 0) with false.
    rewrite (proj2 (Z.leb_gt _ 0)) by lia. cbn [orb Z.to_nat rbind]. unfold get_cell. rewrite Hc. reflexivity.
  - rewrite (read_const _ _ _ _ G). cbn [load_const fst snd]. unfold load_item, access. rewrite Hc. reflexivity.
  - intros s. rewrite (read_const _ _ _ _ G). cbn [load_const fst snd]. unfold load_item, access. rewrite Hc. reflexivity.
Qed.

Definition array_memory : mem := Mem [Cont None [CRef 1]; Cont None [CI 10; CI 20]] [].
Example C124_case : reached array_memory /\ has_array array_memory 0 1 [VI 10; VI 20] /\
  eval array_memory (EIdx (EVar 0) (EK (KI 4294967297))) = Ok (array_memory, CI 20) /\
  whole (S754_finite false (2 ^ 52)%positive (-52)) 1 /\
  eval array_memory (EIdx (EVar 0) (EK (KF (S754_finite false (2 ^ 52)%positive (-52))))) = Ok (array_memory, CI 20).
Proof.
  split; [|split; [split; reflexivity|split; [reflexivity|split; [reflexivity|vm_compute; reflexivity]]]].
  apply (R_step (start 1) (SSet (DVar 0) (ELit (LPush (LPush LArr (EK (KI 10))) (EK (KI 20)))))); [apply R_start|reflexivity].
Qed.

(** ** C125: characters of strings *)

(** A variable that holds a text. *)
Definition has_text (m : mem) (x : nat) (t : list Z) : Prop := obs m 0 x = Some (VText t).
Lemma has_text_inv m x t : has_text m x t -> exists r, get_cell m 0 x = Some (CStr r) /\ nth_error (strs m) r = Some t.
Proof.
  intros H. unfold has_text, obs in H. destruct (get_cell m 0 x) as [y|] eqn:G; [|discriminate]. injection H as H. apply shown_text in H.
  destruct H as [r [-> H]]. eauto.
Qed.
Lemma read_char m x t z : has_text m x t -> eval m (EIdx (EVar x) (EK (KI z))) = do b <- byte_at t z; Ok (m, CI (signed8 b)).
Proof.
  intros H. destruct (has_text_inv _ _ _ H) as [r [G N]]. rewrite (read_const _ _ _ _ G). cbn [load_const fst snd]. unfold load_item. cbn [access rbind].
  rewrite N. destruct (byte_at t z); reflexivity.
Qed.

Theorem C125_character_partial : forall m x t z b, reached m -> has_text m x t -> 0 <= z ->
  nth_error t (Z.to_nat z) = Some b -> 0 <= b < 128 -> eval m (EIdx (EVar x) (EK (KI z))) = Ok (m, CI b).
Proof.
  intros m x t z b _ H Hz N B. rewrite (read_char _ _ _ _ H). unfold byte_at. pose proof (nth_error_lt _ _ _ N).
  rewrite (proj2 (Z.ltb_ge z 0)), (proj2 (Z.ltb_ge _ z)) by lia. cbn [orb rbind]. rewrite (nth_error_nth _ _ 0 N).
  unfold signed8. rewrite (proj2 (Z.ltb_lt b 128)) by lia. reflexivity.
Qed.
Theorem C125_other_index_partial : forall m x t k, reached m -> has_text m x t -> (forall z, k <> KI z) ->
  eval m (EIdx (EVar x) (EK k)) = Thr.
Proof.
  intros m x t k _ H N. destruct (has_text_inv _ _ _ H) as [r [G _]]. rewrite (read_const _ _ _ _ G).
  destruct k; try reflexivity. destruct (N z). reflexivity.
Qed.
(** No index is out of range: the one behind the text gives 0, others read foreign memory. *)
Theorem C125_no_range_check_refuted : forall m x t, reached m -> has_text m x t ->
  eval m (EIdx (EVar x) (EK (KI (Z.of_nat (List.length t))))) = Ok (m, CI 0) /\
  (forall z, z < 0 \/ Z.of_nat (List.length t) < z -> eval m (EIdx (EVar x) (EK (KI z))) = UB).
Proof.
  intros m x t _ H. split.
  - rewrite (read_char _ _ _ _ H). unfold byte_at. rewrite (proj2 (Z.ltb_ge _ 0)), Z.ltb_irrefl by lia. cbn [orb rbind].
    rewrite Nat2Z.id, nth_overflow by lia. reflexivity.
  - intros z Hz. rewrite (read_char _ _ _ _ H). unfold byte_at.
    destruct ((z <? 0) || (Z.of_nat (List.length t) <? z)) eqn:B; [reflexivity|]. apply orb_false_iff in B. rewrite !Z.ltb_ge in B. lia.
Qed.
(** A byte from 128 on is read as a negative number. *)
Theorem C125_high_byte_refuted : forall m x t z b, reached m -> has_text m x t -> 0 <= z ->
  nth_error t (Z.to_nat z) = Some b -> 128 <= b < 256 -> eval m (EIdx (EVar x) (EK (KI z))) = Ok (m, CI (b - 256)) /\ b - 256 < 0.
Proof.
  intros m x t z b _ H Hz N B. split; [|lia]. rewrite (read_char _ _ _ _ H). unfold byte_at. pose proof (nth_error_lt _ _ _ N).
  rewrite (proj2 (Z.ltb_ge z 0)), (proj2 (Z.ltb_ge _ z)) by lia. cbn [orb rbind]. rewrite (nth_error_nth _ _ 0 N).
  unfold signed8. rewrite (proj2 (Z.ltb_ge b 128)) by lia. reflexivity.
Qed.
Definition text_memory : mem := Mem [Cont None [CStr 1; CU]] [[97; 233]; [97; 233]].
Example C125_case : reached text_memory /\ has_text text_memory 0 [97; 233].
Proof. split; [|reflexivity]. apply (R_step (start 2) (SSet (DVar 0) (EK (KS [97; 233])))); [apply R_start|reflexivity]. Qed.

(** ** C126: stores to characters *)
Definition put_char (x : nat) (z : Z) (e : expr) : stmt := SSet (DIdx (EVar x) (EK (KI z))) e.

Lemma put_char_exec m x t z k : has_text m x t -> (forall u, k <> KS u) -> exists r, get_cell m 0 x = Some (CStr r) /\ nth_error (strs m) r = Some t /\
  exec m (put_char x z (EK k)) = store_char m r z (snd (load_const m k)).
Proof.
  intros H N. destruct (has_text_inv _ _ _ H) as [r [G E]]. exists r. split; [exact G|]. split; [exact E|].
  unfold put_char. cbn [exec eval]. destruct k; try (cbn [load_const rbind fst snd]; rewrite G; reflexivity). destruct (N t0). reflexivity.
Qed.

Theorem C126_store_partial : forall m x t z n, reached m -> has_text m x t -> 0 <= z < Z.of_nat (List.length t) -> 0 < n < 256 ->
  exists m', exec m (put_char x z (EK (KI n))) = Ok m' /\
    obs m' 0 x = Some (VText (firstn (Z.to_nat z) t ++ n :: skipn (S (Z.to_nat z)) t)) /\
    forall c i v, ~ (c = 0%nat /\ i = x) -> obs m c i = Some v -> obs m' c i = Some v.
Proof.
  intros m x t z n R H Hz Hn. apply reached_wf in R. destruct (put_char_exec m x t z (KI n) H ltac:(discriminate)) as [r [G [E X]]].
  pose proof (put_text_changed m 0 x r (put t (Z.to_nat z) n) R G) as C. eexists. split; [|split].
  - rewrite X. cbn [load_const snd store_char]. rewrite E. rewrite (proj2 (Z.leb_le 0 z)), (proj2 (Z.ltb_lt z _)) by lia. cbn [andb]. reflexivity.
  - rewrite (Z.mod_small n 256) by lia. unfold obs. change (get_cell _ 0 x) with (get_cell m 0 x). rewrite G. cbn [option_map shown strs].
    rewrite put_same by (eapply nth_error_lt, E). rewrite put_split by lia. reflexivity.
  - rewrite (Z.mod_small n 256) by lia. exact (changed_only _ _ _ _ _ C).
Qed.
(** Any other value is neither stored nor an error. *)
Theorem C126_other_value_refuted : forall m x t z k, reached m -> has_text m x t -> (forall n, k <> KI n) ->
  exists m', exec m (put_char x z (EK k)) = Ok m' /\ shows m' = shows m.
Proof.
  intros m x t z k R H N. apply reached_wf in R. destruct (has_text_inv _ _ _ H) as [r [G E]].
  assert (S : forall u, shows (fst (new_text m u)) = shows m) by (intros u; apply shows_same_conts; [exact R|apply extends_text|reflexivity]).
  unfold put_char. cbn [exec eval].
  destruct k; try (cbn [load_const rbind fst snd]; rewrite G; eexists; split; reflexivity); [destruct (N z0); reflexivity|].
  exists (fst (new_text m t0)). split; [|apply S]. cbn [load_const rbind].
  change (let (m', r0) := new_text m t0 in (m', CStr r0)) with (fst (new_text m t0), CStr (snd (new_text m t0))). cbn [fst snd].
  change (get_cell (fst (new_text m t0)) 0 x) with (get_cell m 0 x). rewrite G. reflexivity.
Qed.
(** An integer is cut to its low byte; a position outside the text is written all the same. *)
Theorem C126_cut_refuted : forall m x t z n k, reached m -> has_text m x t ->
  exec m (put_char x z (EK (KI (n + k * 256)))) = exec m (put_char x z (EK (KI n))).
Proof.
  intros m x t z n k _ H. destruct (has_text_inv _ _ _ H) as [r [G E]]. unfold put_char. cbn [exec eval load_const rbind fst snd]. rewrite G.
  cbn [ofo rbind fst snd access store_char]. rewrite Z_mod_plus_full. reflexivity.
Qed.
Theorem C126_no_range_check_refuted : forall m x t z n, reached m -> has_text m x t -> ~ 0 <= z < Z.of_nat (List.length t) ->
  exec m (put_char x z (EK (KI n))) = UB.
Proof.
  intros m x t z n _ H N. destruct (put_char_exec m x t z (KI n) H ltac:(discriminate)) as [r [G [E X]]]. rewrite X.
  cbn [load_const snd store_char]. rewrite E. destruct ((0 <=? z) && (z <? Z.of_nat (List.length t))) eqn:B; [|reflexivity].
  apply andb_true_iff in B. rewrite Z.leb_le, Z.ltb_lt in B. lia.
Qed.
Example C126_case : exists m', exec text_memory (put_char 0 1 (EK (KI 98))) = Ok m' /\ obs m' 0 0 = Some (VText [97; 98]) /\
  exec text_memory (put_char 0 1 (EK (KS [120]))) = Ok (Mem (conts text_memory) (strs text_memory ++ [[120]])).
Proof. eexists. split; [reflexivity|]. split; reflexivity. Qed.

(** ** C127: evaluation has no effect *)
Theorem C127_evaluation_has_no_effect : forall m e m' y, reached m -> eval m e = Ok (m', y) ->
  forall c k, nth_error (shows m) c = Some k -> nth_error (shows m') c = Some k.
Proof. intros m e m' y R E c k. apply shows_extends; [apply reached_wf, R|eapply eval_extends, E]. Qed.
(** A literal is a container that did not exist before. *)
Theorem C127_literals_are_new : forall m l m' y, reached m -> eval m (ELit l) = Ok (m', y) ->
  exists c k, y = CRef c /\ nth_error (shows m) c = None /\ nth_error (shows m') c = Some k.
Proof.
  intros m l m' y R E. cbn [eval] in E. apply rbind_ok in E. destruct E as [[m1 c] [B E]]. injection E as <- <-. cbn [fst snd].
  destruct (build_extends _ _ _ _ B) as [_ L]. exists c. destruct (nth_error (shows m1) c) as [k|] eqn:N.
  - exists k. split; [reflexivity|]. split; [|reflexivity]. apply nth_error_None. rewrite shows_length. lia.
  - apply nth_error_None in N. rewrite shows_length in N. lia.
Qed.
Example C127_case : exists m' y, eval array_memory (ELit (LPush (LPush LArr (EVar 0)) (EIdx (EVar 0) (EK (KI 1))))) = Ok (m', y) /\
  shows m' = shows array_memory ++ [Cont None [VRef 1; VI 20]].
Proof. eexists _, _. split; reflexivity. Qed.

(** ** C128: a statement changes one place *)
Theorem C128_one_place_changes : forall m st m', reached m -> exec m st = Ok m' ->
  exists c i, forall d j v, ~ (d = c /\ j = i) -> obs m d j = Some v -> obs m' d j = Some v.
Proof. intros m st m' R E. exact (exec_only m st m' (reached_wf _ R) E). Qed.
Theorem C128_variable_store : forall m x e m', reached m -> exec m (SSet (DVar x) e) = Ok m' ->
  forall d j v, ~ (d = 0%nat /\ j = x) -> obs m d j = Some v -> obs m' d j = Some v.
Proof. intros m x e m' R E. exact (exec_var_only m x e m' (reached_wf _ R) E). Qed.
(** [x1 = x0] for texts, then a character of [x1] is written: [x0] stays. *)
Example C128_case : exists m1 m2, exec text_memory (SSet (DVar 1) (EVar 0)) = Ok m1 /\ reached m1 /\
  exec m1 (put_char 1 0 (EK (KI 65))) = Ok m2 /\ obs m2 0 0 = Some (VText [97; 233]) /\ obs m2 0 1 = Some (VText [65; 233]).
Proof.
  eexists _, _. split; [reflexivity|]. split; [|split; [reflexivity|split; reflexivity]].
  apply (R_step text_memory (SSet (DVar 1) (EVar 0))); [exact (proj1 C125_case)|reflexivity].
Qed.

Print Assumptions C123_programs_partial.
Print Assumptions C123_errors_partial.
Print Assumptions C123_text_in_a_literal_refuted.
Print Assumptions C124_element_partial.
Print Assumptions C124_whole_float_partial.
Print Assumptions C124_index_wraps_refuted.
Print Assumptions C124_float_index_refuted.
Print Assumptions C125_character_partial.
Print Assumptions C125_other_index_partial.
Print Assumptions C125_no_range_check_refuted.
Print Assumptions C125_high_byte_refuted.
Print Assumptions C126_store_partial.
Print Assumptions C126_other_value_refuted.
Print Assumptions C126_cut_refuted.
Print Assumptions C126_no_range_check_refuted.
Print Assumptions C127_evaluation_has_no_effect.
Print Assumptions C127_literals_are_new.
Print Assumptions C128_one_place_changes.
Print Assumptions C128_variable_store.
