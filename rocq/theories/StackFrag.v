(** * Heights of the operand stack: a static discipline for code. *)
From Coq Require Import ZArith List Bool Lia.
From Verif Require Import Base FloatModel ExprModel VmModel StackModel.
Import ListNotations.
Local Open Scope Z_scope.

(** ** What one instruction does to the height. *)

(** Does the next instruction follow? *)
Definition falls (i : instr) : bool :=
  match i with Jmp _ _ | JmpCase _ | Ret | EndFun => false | _ => true end.

(** Operands taken from the stack by a [Bin]. *)
Definition bin_pops (props : Z) : nat :=
  let m := Z.land props P_ILOAD in
  if m =? P_ILOAD_K then 1%nat
  else if m =? P_ILOAD_R then 1%nat
  else if m =? P_ILOAD_KR then 0%nat
  else if m =? P_ILOAD_RK then 0%nat
  else if m =? P_ILOAD_RR then 0%nat
  else 2%nat.

Definition pops (i : instr) : nat :=
  match i with
  | Bin _ _ _ props => bin_pops props
  | Un _ | Inst _ | IncDec _ _ _ | ItLoad _ | ItCall _ _ | Jnt _ _ | Jt _ _ | JeCase _ => 1
  | Asg _ _ => 2
  | Store n _ => n
  | Prim _ n _ | LPrim _ n => n
  | _ => 0
  end.
Definition pushes (i : instr) : nat :=
  match i with
  | LoadK _ | LoadUndef | LoadNull | LoadFun _ | LoadType _ | LoadVar _ | PushVar _ => 1
  | Bin _ _ _ _ | Un _ | Inst _ | IncDec _ _ _ | Asg _ _ | Prim _ _ _ | LPrim _ _ | ItLoad _ => 1
  | ItCall n _ => n
  | _ => 0
  end.
Definition fall (i : instr) (h : nat) : nat :=
  if resets i then 0%nat else (h - pops i + pushes i)%nat.

(** The jump of an instruction: mark, offset, height on arrival. *)
Definition tgt (i : instr) (h : nat) : option (mark * Z * nat) :=
  match i with
  | Jmp m off => Some (m, off, h)
  | Jnt m off | Jt m off => Some (m, off, (h - 1)%nat)
  | JeCase off | JmpCase off => Some (NoMark, off, 0%nat)
  | _ => None
  end.

Section Step.
Variable S : Sem.

Lemma take_len : forall n (s acc : list (slot S)) a r, take_args S n s acc = Some (a, r) ->
  length s = (n + length r)%nat.
Proof.
  induction n as [|n IH]; intros s acc a r E; cbn in E.
  - inversion E; subst. reflexivity.
  - destruct s as [|x s]; [discriminate|]. cbn. rewrite (IH _ _ _ _ E). reflexivity.
Qed.
Lemma take_len_args : forall n (s acc : list (slot S)) a r, take_args S n s acc = Some (a, r) ->
  length a = (n + length acc)%nat.
Proof.
  induction n as [|n IH]; intros s acc a r E; cbn in E.
  - inversion E; subst. reflexivity.
  - destruct s as [|x s]; [discriminate|]. rewrite (IH _ _ _ _ E). cbn. lia.
Qed.
Lemma pop_two_len : forall op1 v2 props s w a b s', pop_two S op1 v2 props s w = Some (a, b, s') ->
  length s = (bin_pops props + length s')%nat.
Proof.
  intros op1 v2 props s w a b s' E. unfold pop_two in E. unfold bin_pops.
  destruct (_ =? P_ILOAD_K).
  { destruct s as [|[] ?]; try discriminate. destruct (imm_const _ _); inversion E; subst. reflexivity. }
  destruct (_ =? P_ILOAD_R).
  { destruct s as [|[] ?]; inversion E; subst. reflexivity. }
  destruct (_ =? P_ILOAD_KR).
  { destruct (imm_const _ _); inversion E; subst. reflexivity. }
  destruct (_ =? P_ILOAD_RK).
  { destruct (imm_const _ _); inversion E; subst. reflexivity. }
  destruct (_ =? P_ILOAD_RR).
  { destruct v2; inversion E; subst. reflexivity. }
  destruct s as [|[] [|[] ?]]; inversion E; subst. reflexivity.
Qed.
Lemma fit_len : forall n vs, length (fit S n vs) = n.
Proof. intros. unfold fit. rewrite firstn_length, app_length, repeat_length. lia. Qed.

Lemma jump_inv : forall p off s s', jump S p off s = Next S s' ->
  Z.of_nat (pc S s') = Z.of_nat p + off /\ sk S s' = sk S s.
Proof.
  intros p off s s' E. unfold jump in E. destruct (Z.ltb_spec (Z.of_nat p + off) 0); [discriminate|].
  inversion E; subst. cbn. split; [lia | reflexivity].
Qed.

(** The height after a step. *)
Lemma step_height : forall C s s', step S C s = Next S s' ->
  exists i, nth_error C (pc S s) = Some i /\
  ((falls i = true /\ pc S s' = Datatypes.S (pc S s) /\ length (sk S s') = fall i (length (sk S s))) \/
   (exists m off h, tgt i (length (sk S s)) = Some (m, off, h) /\
      Z.of_nat (pc S s') = Z.of_nat (pc S s) + off /\ length (sk S s') = h)).
Proof.
  intros C [p k w sc] s' E. unfold step in E. cbn [pc wd scs sk] in *.
  destruct (nth_error C p) as [i|]; [|discriminate]. exists i. split; [reflexivity|].
  destruct i; cbn [falls tgt]; unfold fall; cbn [pops pushes resets].
  all: try (left; inversion E; subst; cbn; (split; [|split]); lia || reflexivity).
  - (* Bin *) destruct (pop_two S op1 v2 props k w) as [((a, b), s1)|] eqn:Ep; [|discriminate].
    destruct (binop S o a b w); inversion E; subst. left. cbn.
    rewrite (pop_two_len _ _ _ _ _ _ _ _ Ep). split; [|split]; lia || reflexivity.
  - destruct k as [|[a|] k]; try discriminate. destruct (unop S u a w); inversion E; subst.
    left; cbn; (split; [|split]); lia || reflexivity.
  - destruct k as [|[a|] k]; try discriminate. destruct (instof S a t w); inversion E; subst.
    left; cbn; (split; [|split]); lia || reflexivity.
  - destruct k as [|[|l] k]; try discriminate. destruct (incdec S post inc l w); inversion E; subst.
    left; destruct rst; cbn; (split; [|split]); lia || reflexivity.
  - destruct k as [|[|l] [|[v|] k]]; try discriminate. destruct (assign S a l v w); inversion E; subst.
    left; destruct rst; cbn; (split; [|split]); lia || reflexivity.
  - destruct (take_args S n k []) as [(ls, k1)|] eqn:E1; [|discriminate].
    destruct (take_args S n k1 []) as [(vs, k2)|] eqn:E2; [|discriminate].
    destruct (store_all S (rev ls) vs w) as [[]|]; inversion E; subst.
    left. rewrite (take_len _ _ _ _ _ E1). destruct rst; cbn; (split; [|split]); lia || reflexivity.
  - destruct (take_args S n k []) as [(ls, k1)|] eqn:E1; [|discriminate].
    destruct (prim S p0 ls w); inversion E; subst.
    left. rewrite (take_len _ _ _ _ _ E1). destruct rst; cbn; (split; [|split]); lia || reflexivity.
  - destruct (take_args S n k []) as [(ls, k1)|] eqn:E1; [|discriminate].
    destruct (lprim S p0 ls w); inversion E; subst.
    left. rewrite (take_len _ _ _ _ _ E1). cbn; (split; [|split]); lia || reflexivity.
  - destruct k as [|[|l] [|[v|] k]]; try discriminate. destruct (itinit S v l w); inversion E; subst.
    left; cbn; (split; [|split]); lia || reflexivity.
  - destruct k as [|[v|] k]; try discriminate. destruct (itload S k0 v w); inversion E; subst.
    left; cbn; (split; [|split]); lia || reflexivity.
  - destruct k as [|[v|] k]; try discriminate. destruct (itcall S n v w); inversion E; subst.
    left. destruct rst; cbn; (split; [|split]); try reflexivity.
    rewrite app_length, map_length, rev_length, fit_len, Nat.sub_0_r. apply Nat.add_comm.
  - apply jump_inv in E. destruct E as (E1 & E2). right. eexists _, _, _. split; [reflexivity|].
    rewrite E2. split; [exact E1 | reflexivity].
  - destruct k as [|[v|] k]; try discriminate. destruct (vbool S v) as [[|]|]; [| |discriminate].
    + inversion E; subst. left; cbn; (split; [|split]); lia || reflexivity.
    + apply jump_inv in E. destruct E as (E1 & E2). right. eexists _, _, _. split; [reflexivity|].
      rewrite E2. split; [exact E1 | cbn; lia].
  - destruct k as [|[v|] k]; try discriminate. destruct (vbool S v) as [[|]|]; [| |discriminate].
    + apply jump_inv in E. destruct E as (E1 & E2). right. eexists _, _, _. split; [reflexivity|].
      rewrite E2. split; [exact E1 | cbn; lia].
    + inversion E; subst. left; cbn; (split; [|split]); lia || reflexivity.
  - destruct k as [|[b|] [|[a|] k]]; try discriminate. destruct (caseeq S a b w) as [e w'|]; [|discriminate].
    cbn [of_ev] in E. destruct e.
    + apply jump_inv in E. destruct E as (E1 & E2). right. eexists _, _, _. split; [reflexivity|].
      rewrite E2. split; [exact E1 | reflexivity].
    + inversion E; subst. left; cbn; (split; [|split]); lia || reflexivity.
  - apply jump_inv in E. destruct E as (E1 & E2). right. eexists _, _, _. split; [reflexivity|].
    rewrite E2. split; [exact E1 | reflexivity].
  - destruct (_ <? _)%nat; inversion E; subst. left; cbn; (split; [|split]); lia || reflexivity.
  - destruct sc; inversion E; subst. left; cbn; (split; [|split]); lia || reflexivity.
Qed.
End Step.

(** ** Fragments of code with heights. *)
Section Frag.
Variable nprim nlprim : Z -> nat -> Z.
(** At least what the instructions really leave. *)
Hypothesis Hprim : forall p n, 1 - Z.of_nat n <= nprim p n.
Hypothesis Hlprim : forall p n, 1 - Z.of_nat n <= nlprim p n.
Notation need := (need nprim nlprim).

(** The running sum. *)
Fixpoint tot (s : Z) (c : code) : Z :=
  match c with [] => s | i :: c' => tot (if resets i then 0 else s + need i) c' end.

Lemma tot_app : forall a b s, tot s (a ++ b) = tot (tot s a) b.
Proof. induction a; intros; cbn; auto. Qed.
Lemma tot_mono : forall c s s', s <= s' -> tot s c <= tot s' c.
Proof. induction c; intros; cbn; [lia|]. apply IHc. destruct (resets a); lia. Qed.

Lemma need_fall : forall i h, falls i = true -> (pops i <= h)%nat ->
  Z.of_nat (fall i h) <= tot (Z.of_nat h) [i].
Proof.
  intros i h _ Hp. unfold fall. cbn [tot].
  destruct i; cbn [resets]; try lia; try (destruct rst; [lia|]); cbn [pops pushes StackModel.need] in *; try lia.
  - unfold bin_pops in *. destruct (Z.land props P_ILOAD =? 0) eqn:E0.
    + apply Z.eqb_eq in E0. rewrite E0 in *. cbn in Hp |- *. destruct o; lia.
    + assert (H1 : 1 <= (if Z.land props P_ILOAD =? P_ILOAD_RR
       then match v2 with
            | Raw z => if negb (Z.land props P_THIS_VAR =? 0) && negb (Z.land z P_THIS_VAR =? 0) then 2 else 1
            | Cst _ => 1 end else 1)).
      { destruct (_ =? P_ILOAD_RR); [|lia]. destruct v2; [|lia]. destruct (_ && _); lia. }
      set (x := if Z.land props P_ILOAD =? P_ILOAD_RR then _ else 1) in *. clearbody x.
      match goal with |- context [(h - ?q + 1)%nat] => set (y := q) in * end. clearbody y. lia.
  - destruct u; lia.
  - specialize (Hprim p n). lia.
  - specialize (Hlprim p n). lia.
Qed.

(** [FragT M T K c a b]: heights [H] for the positions of [c], [a] at the
    start and [b] at the end; marked jumps arrive with the height [M] gives; other jumps go to positions of [c] with the right height, or to
    positions allowed by [T]; [K]: positions whose height is known; no height
    exceeds the running sum. *)
Definition jump_ok (M : instr -> option nat) (T : Z -> nat -> Prop) (H : nat -> nat) (len p : nat) (i : instr) : Prop :=
  match tgt i (H p) with
  | None => True
  | Some (m, off, h) =>
      match m with
      | NoMark => (0 <= Z.of_nat p + off <= Z.of_nat len /\ H (Z.to_nat (Z.of_nat p + off)) = h)
                  \/ T (Z.of_nat p + off) h
      | _ => M i = Some h
      end
  end.
Definition FragT (M : instr -> option nat) (T K : Z -> nat -> Prop) (c : code) (a b : nat) : Prop :=
  exists H : nat -> nat,
    H 0%nat = a /\ H (length c) = b /\
    (forall z h, K z h -> 0 <= z <= Z.of_nat (length c) /\ H (Z.to_nat z) = h) /\
    (forall p i, nth_error c p = Some i ->
       (falls i = true -> H (S p) = fall i (H p)) /\ jump_ok M T H (length c) p i) /\
    (forall p, (p <= length c)%nat -> Z.of_nat (H p) <= tot (Z.of_nat a) (firstn p c)).

Definition none (z : Z) (h : nat) : Prop := False.
Definition nom (i : instr) : option nat := None.
Definition Frag (c : code) (a b : nat) : Prop := FragT nom none none c a b.

Lemma FragT_weaken : forall (M M' : instr -> option nat) (T T' K K' : Z -> nat -> Prop) c a b,
  (forall i h, M i = Some h -> M' i = Some h) -> (forall z h, T z h -> T' z h) -> (forall z h, K' z h -> K z h) ->
  FragT M T K c a b -> FragT M' T' K' c a b.
Proof.
  intros M M' T T' K K' c a b HM HT HK (H & H0 & H1 & H2 & H3 & H4).
  exists H. split; [auto|]. split; [auto|]. split; [auto|]. split; [|auto].
  intros p i E. destruct (H3 p i E) as (A & B). split; [exact A|].
  unfold jump_ok in *. destruct (tgt i (H p)) as [((m, off), h)|]; [|exact I].
  destruct m; auto. destruct B; auto.
Qed.
Lemma Frag_any : forall M T c a b, Frag c a b -> FragT M T none c a b.
Proof.
  intros M T c a b. apply FragT_weaken.
  - discriminate.
  - intros z h [].
  - auto.
Qed.

Lemma FragT_nil : forall M T a, FragT M T none [] a a.
Proof.
  intros. exists (fun _ => a). split; [auto|]. split; [auto|]. split; [intros z h []|]. split.
  - intros p i E. destruct p; discriminate.
  - intros p Hp. destruct p; cbn; lia.
Qed.

Lemma nth_len : forall (c : code) p i, nth_error c p = Some i -> (p < length c)%nat.
Proof. intros. apply nth_error_Some. congruence. Qed.

(** One instruction. *)
Lemma FragT_one : forall (M : instr -> option nat) (T : Z -> nat -> Prop) i a b,
  (falls i = true -> b = fall i a) -> (pops i <= a)%nat -> (falls i = false -> (b <= a)%nat /\ resets i = false \/ b = 0%nat) ->
  match tgt i a with
  | None => True
  | Some (m, off, h) => match m with NoMark => T off h | _ => M i = Some h end
  end -> FragT M T none [i] a b.
Proof.
  intros M T i a b Hf Hp Hn Ht. exists (fun p => match p with O => a | _ => b end).
  split; [reflexivity|]. split; [reflexivity|]. split; [intros z h []|]. split.
  - intros p j E. destruct p as [|p]; [|destruct p; discriminate]. inversion E; subst j. split; [exact Hf|].
    unfold jump_ok. destruct (tgt i a) as [((m, off), h)|]; [|exact I]. destruct m; auto.
  - intros p Hle. destruct p as [|p]; [cbn; lia|].
    assert (p = 0)%nat by (cbn in Hle; lia). subst p. cbn [firstn].
    destruct (falls i) eqn:Ef.
    + rewrite (Hf eq_refl). apply need_fall; auto.
    + destruct (Hn eq_refl) as [(Hb & Hr) | ->].
      * cbn [tot]. rewrite Hr. destruct i; try discriminate; cbn; lia.
      * cbn [tot]. destruct i; try discriminate; cbn; lia.
Qed.

(** Two fragments in a row. *)
Definition seam (n : nat) (b : nat) (K1 K2 : Z -> nat -> Prop) (z : Z) (h : nat) : Prop :=
  K1 z h \/ (z = Z.of_nat n /\ h = b) \/ K2 (z - Z.of_nat n) h.
Lemma FragT_seq : forall M T K1 K2 c1 c2 a b d,
  FragT M T K1 c1 a b -> FragT M (fun z h => T (z + Z.of_nat (length c1)) h) K2 c2 b d ->
  FragT M T (seam (length c1) b K1 K2) (c1 ++ c2) a d.
Proof.
  intros M T K1 K2 c1 c2 a b d (H & A0 & A1 & A2 & A3 & A4) (G & B0 & B1 & B2 & B3 & B4).
  set (n := length c1) in *.
  set (F := fun p => if (p <? n)%nat then H p else G (p - n)%nat).
  assert (Flt : forall p, (p <= n)%nat -> F p = H p).
  { intros p Hp. unfold F. destruct (Nat.ltb_spec p n); [reflexivity|].
    replace p with n by lia. rewrite Nat.sub_diag, B0, A1. reflexivity. }
  assert (Fge : forall p, (n <= p)%nat -> F p = G (p - n)%nat).
  { intros p Hp. unfold F. destruct (Nat.ltb_spec p n); [lia|]. reflexivity. }
  exists F. split; [rewrite Flt by lia; exact A0|].
  split; [rewrite app_length, Fge by (unfold n; lia); replace (_ + _ - _)%nat with (length c2) by (unfold n; lia); exact B1|].
  split; [|split].
  - intros z h [Hk | [(-> & ->) | Hk]].
    + destruct (A2 _ _ Hk) as (X1 & X2). fold n in X1. rewrite app_length. split; [unfold n in *; lia|].
      rewrite Flt by lia. exact X2.
    + rewrite app_length. split; [unfold n; lia|]. rewrite Nat2Z.id, Flt by lia. exact A1.
    + destruct (B2 _ _ Hk) as (X1 & X2). rewrite app_length. split; [unfold n in *; lia|].
      rewrite Fge by lia. rewrite <- X2. f_equal. lia.
  - intros p i E. destruct (Nat.ltb_spec p n) as [Hp | Hp].
    + rewrite nth_error_app1 in E by exact Hp. destruct (A3 p i E) as (X & Y).
      split; [intros Hf; rewrite !Flt by lia; auto|].
      unfold jump_ok in *. rewrite Flt by lia. destruct (tgt i (H p)) as [((m, off), h)|]; [|exact I].
      destruct m; auto. destruct Y as [(Y1 & Y2) | Y]; [left | right; exact Y].
      fold n in Y1. rewrite app_length. split; [unfold n in *; lia|]. rewrite Flt by lia. exact Y2.
    + rewrite nth_error_app2 in E by exact Hp. fold n in E. destruct (B3 (p - n)%nat i E) as (X & Y).
      split.
      * intros Hf. rewrite !Fge by lia. replace (S p - n)%nat with (S (p - n)) by lia. auto.
      * unfold jump_ok in *. rewrite Fge by lia. destruct (tgt i (G (p - n)%nat)) as [((m, off), h)|]; [|exact I].
        destruct m; auto. destruct Y as [(Y1 & Y2) | Y].
        -- left. rewrite app_length. split; [unfold n in *; lia|].
           rewrite Fge by lia. rewrite <- Y2. f_equal. lia.
        -- right. replace (Z.of_nat p + off) with (Z.of_nat (p - n) + off + Z.of_nat n) by lia. exact Y.
  - intros p Hp. destruct (Nat.leb_spec p n) as [Hle | Hgt].
    + rewrite Flt by exact Hle. rewrite firstn_app. fold n. replace (p - n)%nat with 0%nat by lia.
      cbn [firstn]. rewrite app_nil_r. apply A4. exact Hle.
    + rewrite Fge by lia. rewrite firstn_app. fold n. rewrite firstn_all2 by (fold n; lia). rewrite tot_app.
      rewrite app_length in Hp. fold n in Hp.
      specialize (B4 (p - n)%nat ltac:(lia)).
      specialize (A4 n (le_n _)). unfold n in A4 at 2. rewrite firstn_all in A4. rewrite A1 in A4.
      pose proof (tot_mono (firstn (p - n) c2) _ _ A4). lia.
Qed.

(** Targets that are positions of known height inside. *)
Lemma FragT_close : forall M (T T' : Z -> nat -> Prop) K c a b, FragT M T K c a b ->
  (forall z h, T z h -> K z h \/ (z = 0 /\ h = a) \/ (z = Z.of_nat (length c) /\ h = b) \/ T' z h) ->
  FragT M T' K c a b.
Proof.
  intros M T T' K c a b (H & H0 & H1 & H2 & H3 & H4) HT.
  exists H. split; [auto|]. split; [auto|]. split; [auto|]. split; [|auto].
  intros p i E. destruct (H3 p i E) as (A & B). split; [exact A|].
  unfold jump_ok in *. destruct (tgt i (H p)) as [((m, off), h)|]; [|exact I].
  destruct m; auto. destruct B as [B | B]; [left; exact B|].
  destruct (HT _ _ B) as [X | [(X & Y) | [(X & Y) | X]]]; [left | left | left | right; exact X].
  - apply H2. exact X.
  - rewrite X, Y. split; [lia | exact H0].
  - rewrite X, Y. split; [lia|]. rewrite Nat2Z.id. exact H1.
Qed.

Lemma Frag_seq : forall c1 c2 a b d, Frag c1 a b -> Frag c2 b d -> Frag (c1 ++ c2) a d.
Proof.
  intros c1 c2 a b d H1 H2.
  apply (FragT_weaken nom nom none none (seam (length c1) b none none)); auto.
  - intros z h [].
  - apply FragT_seq; [exact H1|]. apply Frag_any. exact H2.
Qed.
Lemma Frag_plain : forall i a, falls i = true -> tgt i a = None -> (pops i <= a)%nat -> Frag [i] a (fall i a).
Proof.
  intros i a Hf Ht Hp. apply FragT_one; auto.
  - congruence.
  - rewrite Ht. exact I.
Qed.

(** ** From fragments to executions. *)
Section Run.
Variable S : Sem.

Definition reach (C : code) (s : st S) : Prop := exists w sc, steps S C (St S 0 [] w sc) s.

Lemma steps_snoc : forall C (s1 s2 s3 : st S), steps S C s1 s2 -> step S C s2 = Next S s3 -> steps S C s1 s3.
Proof.
  intros C s1 s2 s3 H. induction H; intros.
  - econstructor; [eassumption | constructor].
  - econstructor; eauto.
Qed.
Lemma steps_ind_r : forall C (P : st S -> Prop) s0, P s0 ->
  (forall s s', steps S C s0 s -> P s -> step S C s = Next S s' -> P s') ->
  forall s, steps S C s0 s -> P s.
Proof.
  intros C P s0 H0 Hs s H.
  assert (G : forall s1, steps S C s1 s -> steps S C s0 s1 -> P s1 -> P s).
  { intros s1 H1. induction H1; intros; [assumption|]. apply IHsteps.
    - exact H.
    - eapply steps_snoc; eassumption.
    - eapply Hs; eassumption. }
  eapply G; [exact H | constructor | exact H0].
Qed.

Theorem heights_static : forall C b, FragT nom none none C 0 b ->
  exists H : nat -> nat, forall s, reach C s -> (pc S s <= length C)%nat /\
    length (sk S s) = H (pc S s) /\ Z.of_nat (H (pc S s)) <= tot 0 (firstn (pc S s) C).
Proof.
  intros C b (H & H0 & H1 & _ & H3 & H4). exists H. intros s (w & sc & Hs).
  assert (G : (pc S s <= length C)%nat /\ length (sk S s) = H (pc S s)).
  { revert s Hs. apply steps_ind_r; [cbn; split; [lia | auto]|].
    intros s s' _ (L & E) Hst. destruct (step_height _ _ _ _ Hst) as (i & Hi & Hc).
    pose proof (nth_len _ _ _ Hi) as Hlt. destruct (H3 _ _ Hi) as (A & B).
    destruct Hc as [(Hf & Hp & Hh) | (m & off & h & Ht & Hp & Hh)].
    - rewrite Hp. split; [lia|]. rewrite Hh, (A Hf), E. reflexivity.
    - unfold jump_ok in B. rewrite <- E, Ht in B. destruct m; try discriminate.
      destruct B as [(B1 & B2) | []]. split; [lia|].
      rewrite Hh, <- B2. f_equal. lia. }
  destruct G as (G1 & G2). split; [exact G1|]. split; [exact G2|]. apply (H4 _ G1).
Qed.

(** A fragment followed by the last instruction of a function is never left. *)
Theorem inside : forall c b, FragT nom none none c 0 b ->
  forall s, reach (c ++ [EndFun]) s -> (pc S s < length (c ++ [EndFun]))%nat.
Proof.
  intros c b (H & H0 & H1 & _ & H3 & H4) s (w & sc & Hs).
  assert (G : (pc S s <= length c)%nat /\ length (sk S s) = H (pc S s)).
  { revert s Hs. apply steps_ind_r; [cbn; split; [lia | auto]|].
    intros s s' _ (L & E) Hst. destruct (step_height _ _ _ _ Hst) as (i & Hi & Hc).
    destruct (Nat.eq_dec (pc S s) (length c)) as [El | Nl].
    { rewrite El, nth_error_app2, Nat.sub_diag in Hi by lia. cbn in Hi.
      assert (i = EndFun) by congruence. subst i. cbn in Hc. destruct Hc as [(Hf & _) | (m & off & h & Ht & _)]; discriminate. }
    rewrite nth_error_app1 in Hi by lia. destruct (H3 _ _ Hi) as (A & B).
    destruct Hc as [(Hf & Hp & Hh) | (m & off & h & Ht & Hp & Hh)].
    - rewrite Hp. split; [lia|]. rewrite Hh, (A Hf), E. reflexivity.
    - unfold jump_ok in B. rewrite <- E, Ht in B. destruct m; try discriminate.
      destruct B as [(B1 & B2) | []]. split; [lia|].
      rewrite Hh, <- B2. f_equal. lia. }
  rewrite app_length. cbn [length]. lia.
Qed.
End Run.

(** The computed requirement is at least every running sum. *)
Lemma count_max : forall c sum mx, 0 <= mx ->
  mx <= snd (count nprim nlprim sum mx c) /\
  forall p, (p <= length c)%nat -> (0 < p)%nat -> tot sum (firstn p c) <= snd (count nprim nlprim sum mx c).
Proof.
  induction c as [|i c IH]; intros sum mx Hmx.
  - cbn. split; [lia|]. intros; lia.
  - cbn [count]. destruct (IH (if resets i then 0 else sum + need i) (Z.max mx (sum + need i)) ltac:(lia)) as (A & B).
    split; [lia|]. intros p Hp Hp0. destruct p as [|p]; [lia|]. cbn [firstn tot].
    destruct p as [|p].
    + cbn [firstn tot]. destruct (resets i); lia.
    + apply B; [cbn in Hp; lia | lia].
Qed.
Lemma min_code_stack_tot : forall c p, (p <= length c)%nat -> tot 0 (firstn p c) <= min_code_stack nprim nlprim c.
Proof.
  intros c p Hp. unfold min_code_stack. destruct (count_max c 0 0 ltac:(lia)) as (A & B).
  destruct (count nprim nlprim 0 0 c) as (sum, mx). cbn [snd] in *.
  assert (G : tot 0 (firstn p c) <= mx).
  { destruct p as [|p]; [cbn; lia|]. apply B; [exact Hp | lia]. }
  destruct (Z.ltb_spec mx sum); lia.
Qed.

End Frag.
