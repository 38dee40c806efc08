(** Proofs about operators, properties and setters of script classes. *)
From Coq Require Import List ZArith Bool String Lia.
From Verif Require Import MetaModel MetaSpec.
Import ListNotations.
Open Scope Z_scope.

Arguments Nat.ltb : simpl never.
Arguments Nat.sub : simpl never.
Ltac parts := repeat match goal with |- _ /\ _ => split end.

Lemma class_at_of : forall ct s o c, Class_of ct (us s) o c <-> class_at ct s o = Some c.
Proof.
  intros ct s o c. unfold Class_of, class_at. split.
  - intros (ob & E & F). rewrite E. exact F.
  - destruct (hp (us s) o) as [ob |]; [| discriminate]. intro F. exists ob. auto.
Qed.

Lemma mem_push_same : forall s v, mem (push s v) (sp s) = v.
Proof. intros. cbn. unfold upd. now rewrite Nat.eqb_refl. Qed.
Lemma mem_push_other : forall s v k, k <> sp s -> mem (push s v) k = mem s k.
Proof. intros. cbn. unfold upd. destruct (Nat.eqb_spec k (sp s)); congruence. Qed.

(** Facts about [exec]. *)
Lemma exec_below : forall s this f start k, (k < start)%nat -> mem (exec s this f start) k = mem s k.
Proof.
  intros s this f start k H. unfold exec.
  destruct (f_body f (us s) this (args_at (mem s) start (f_params f))) as [u r].
  destruct r; cbn; destruct (Nat.ltb_spec k start); try lia; reflexivity.
Qed.
Lemma exec_locals : forall s this f start k,
  (start <= k < start + f_locals f)%nat -> mem (exec s this f start) k = undef.
Proof.
  intros s this f start k H. unfold exec.
  destruct (f_body f (us s) this (args_at (mem s) start (f_params f))) as [u r].
  destruct r; cbn; destruct (Nat.ltb_spec k start); try lia;
    destruct (Nat.ltb_spec k (start + f_locals f)); try lia; reflexivity.
Qed.
Lemma exec_gives : forall s this f start u v,
  Gives f (us s) this (args_at (mem s) start (f_params f)) u v ->
  let s' := exec s this f start in
  us s' = u /\ err s' = err s /\ mem s' (start + f_locals f)%nat = v /\
  aux1 s' = aux1 s /\ aux2 s' = aux2 s.
Proof.
  intros s this f start u v G. unfold exec. cbv zeta.
  inversion G as [u' v' l E | u' E]; subst; rewrite E; cbn; parts; auto;
    destruct (Nat.ltb_spec (start + f_locals f) start); try lia;
    rewrite Nat.ltb_irrefl.
  - now rewrite Nat.sub_diag.
  - unfold upd. now rewrite Nat.eqb_refl.
Qed.
Lemma exec_fails : forall s this f start,
  Fails f (us s) this (args_at (mem s) start (f_params f)) ->
  err (exec s this f start) = true /\ sp (exec s this f start) = start /\
  us (exec s this f start) = fst (f_body f (us s) this (args_at (mem s) start (f_params f))).
Proof.
  intros s this f start F. unfold Fails in F. unfold exec.
  destruct (f_body f (us s) this (args_at (mem s) start (f_params f))) as [u r].
  cbn in F. subst r. cbn. auto.
Qed.

Lemma inner_gives : forall s this f back u v,
  err s = false ->
  Gives f (us s) this (args_at (mem s) (sp s) (f_params f)) u v ->
  exists s', inner_call s this f back = Some s' /\ us s' = u /\ err s' = false /\
    sp s' = (if back then S (sp s) else sp s) /\
    (forall k, (k < sp s)%nat -> mem s' k = mem s k) /\
    (back = true \/ f_locals f = O -> mem s' (sp s) = v) /\
    (back = false -> (0 < f_locals f)%nat -> mem s' (sp s) = undef) /\
    aux1 s' = aux1 s /\ aux2 s' = aux2 s.
Proof.
  intros s this f back u v E G. pose proof (exec_gives s this f (sp s) u v G) as X. cbv zeta in X.
  destruct X as (X1 & X2 & X3 & X4 & X5).
  unfold inner_call. rewrite X2, E. destruct back.
  - eexists. split; [reflexivity |]. cbn -[exec].
    parts; auto; try congruence; try discriminate.
    + intros k Hk. unfold upd. destruct (Nat.eqb_spec k (sp s)); [lia |]. now apply exec_below.
    + intros _. unfold upd. rewrite Nat.eqb_refl. exact X3.
  - eexists. split; [reflexivity |]. cbn -[exec].
    parts; auto; try congruence.
    + intros k Hk. now apply exec_below.
    + intros [C | Z]; [discriminate |]. rewrite Z, Nat.add_0_r in X3. exact X3.
    + intros _ L. apply exec_locals. lia.
Qed.
Lemma inner_fails : forall s this f back,
  Fails f (us s) this (args_at (mem s) (sp s) (f_params f)) -> inner_call s this f back = None.
Proof.
  intros s this f back F. unfold inner_call. destruct (exec_fails s this f (sp s) F) as (E & _).
  now rewrite E.
Qed.

Lemma class_fun : forall ct u o c c', Class_of ct u o c -> Class_of ct u o c' -> c = c'.
Proof. intros ct u o c c' (ob & A & B) (ob' & A' & B'). congruence. Qed.

(** Reading a property *)
Lemma get_prop_gives : forall s o p g u v,
  err s = false -> p_get p = Some g -> f_params g = O -> Gives g (us s) (Some o) [] u v ->
  (f_locals g = O -> Result s (sp s) u v (get_prop s o p)) /\
  ((0 < f_locals g)%nat -> Result s (sp s) u undef (get_prop s o p)).
Proof.
  intros s o p g u v E P Z G. unfold get_prop, Result. rewrite P.
  destruct (inner_gives s (Some o) g false u v E) as (s' & I & U & E' & Sp & B & R & L & _).
  { rewrite Z. exact G. }
  rewrite I. split; intro H; eexists; (split; [reflexivity |]); cbn; rewrite Sp; parts; auto.
Qed.

(** Operands *)
Lemma load_reg_ok : forall ct s lb this r u v,
  err s = false -> Operand ct (mem s) lb this (us s) r u v -> Simple ct (us s) this r ->
  exists s' l, load_reg ct s lb this r = Some (s', l) /\ us s' = u /\ err s' = false /\ sp s' = sp s /\
    (forall k, (k <= sp s)%nat -> mem s' k = mem s k) /\
    aux1 s' = aux1 s /\ aux2 s' = aux2 s /\
    rd s' l = v /\
    match r with
    | RLoc n => l = LStk (lb + n)%nat
    | RThis x => (Variable_ ct (us s) this x /\ l = LFld this x) \/
                 ((exists p, Property ct (us s) this x p) /\ l = LStk (S (sp s)))
    end.
Proof.
  intros ct s lb this r u v E O Si. destruct O as [n | x V | x p g u' v P G Z Gv].
  - exists s, (LStk (lb + n)). cbn. parts; auto.
  - destruct V as (c & C & F). apply class_at_of in C. exists s, (LFld this x). cbn. rewrite C, F.
    parts; auto. left. split; auto. exists c. split; auto. now apply class_at_of.
  - pose proof P as P0. destruct P as (c & C & F). apply class_at_of in C.
    cbn [load_reg]. rewrite C, F, G.
    destruct (inner_gives (with_mem s (mem s) (S (sp s))) (Some this) g false u' v E) as
      (s' & I & U & E' & Sp & B & R & _ & A1 & A2).
    { rewrite Z. exact Gv. }
    rewrite I. cbn in Sp. eexists _, _. split; [reflexivity |]. cbn. rewrite Sp. cbn in B, R.
    parts; auto.
    + intros k Hk. apply B. lia.
    + apply R. right. now apply (Si p g P0 G).
    + right. split; eauto.
Qed.

Lemma plain_simple : forall ct u this r, Plain ct u this r -> Simple ct u this r.
Proof.
  intros ct u this [n | x] H; cbn in *; auto.
  intros p g (c & C & F) _. destruct H as (c' & C' & F').
  destruct C as (ob & A & B), C' as (ob' & A' & B'). congruence.
Qed.
Lemma plain_not_prop : forall ct u this x p, Variable_ ct u this x -> Property ct u this x p -> False.
Proof.
  intros ct u this x p (c & C & F) (c' & C' & F').
  destruct C as (ob & A & B), C' as (ob' & A' & B'). congruence.
Qed.

Lemma below_le : forall lb top n, (lb + n < top - 1)%nat -> (lb + n < top)%nat.
Proof. lia. Qed.

(** Reading a register does not depend on the slots above the top. *)
Lemma operand_ext : forall ct m m' lb this u r u' v,
  match r with RLoc n => m' (lb + n)%nat = m (lb + n)%nat | RThis _ => True end ->
  Operand ct m lb this u r u' v -> Operand ct m' lb this u r u' v.
Proof.
  intros ct m m' lb this u r u' v H O. destruct O.
  - rewrite <- H. constructor.
  - now constructor.
  - econstructor; eauto.
Qed.

Definition got (s s' : vm) (l1 l2 : loc) (p : nat) (u : usr) (v1 v2 : stk) : Prop :=
  rd s' l1 = v1 /\ rd s' l2 = v2 /\ us s' = u /\ sp s' = p /\ err s' = false /\
  (forall k, (k < p)%nat -> mem s' k = mem s k) /\ l2 <> LStk p.

Lemma pop_two_ok : forall ct s lb this f u v1 v2 p,
  err s = false -> Operands ct (mem s) (sp s) lb this (us s) f u v1 v2 p ->
  Tame ct (mem s) (sp s) lb this (us s) u f ->
  exists s' l1 l2, pop_two ct s lb this f = Some (s', l1, l2) /\ got s s' l1 l2 p u v1 v2 /\
    (const_right f = false -> l2 <> LAux1) /\ (const_right f = true -> l2 = LAux1) /\
    (forall r k, f = FRK r k -> l1 <> LAux1).
Proof.
  intros ct s lb this f u v1 v2 p E O T. destruct O as [H | k H | r u' v H O | k r u' v O | r k u' v O | r1 r2 u1 u2 v1 v2 O1 O2].
  - eexists _, _, _. split; [reflexivity |]. unfold got. cbn. parts; auto; try discriminate.
    intro C. injection C. lia.
  - eexists _, _, _. split; [reflexivity |]. unfold got. cbn. parts; auto; try discriminate.
  - destruct T as (T & B). cbn [pop_two].
    destruct (load_reg_ok ct (with_mem s (mem s) (sp s - 1)) lb this r u' v) as
      (s' & l & L & U & E' & Sp & M & A1 & A2 & R & W); auto.
    cbn in M, Sp. rewrite L. eexists _, _, _. split; [reflexivity |]. unfold got. cbn. parts; auto; try discriminate.
    + intros k Hk. apply M. lia.
    + destruct r as [n | x]; cbn in B.
      * subst l. intro C. injection C. lia.
      * destruct W as [[_ W] | [_ W]]; rewrite W; [discriminate |]. intro C. injection C. cbn. lia.
    + intros _. destruct r as [n | x]; [subst l; discriminate |].
      destruct W as [[_ W] | [_ W]]; rewrite W; discriminate.
  - destruct T as (T & B). cbn [pop_two].
    destruct (load_reg_ok ct (with_aux1 s k) lb this r u' v) as
      (s' & l & L & U & E' & Sp & M & A1 & A2 & R & W); auto.
    cbn in M, Sp. rewrite L. eexists _, _, _. split; [reflexivity |]. unfold got. cbn. parts; auto; try discriminate.
    + intros k' Hk. apply M. lia.
    + destruct r as [n | x]; cbn in B.
      * subst l. intro C. injection C. lia.
      * destruct W as [[_ W] | [_ W]]; rewrite W; [discriminate |]. intro C. injection C. cbn. lia.
    + intros _. destruct r as [n | x]; [subst l; discriminate |].
      destruct W as [[_ W] | [_ W]]; rewrite W; discriminate.
  - destruct T as (T & B). cbn [pop_two].
    destruct (load_reg_ok ct s lb this r u' v) as
      (s' & l & L & U & E' & Sp & M & A1 & A2 & R & W); auto.
    rewrite L. eexists _, _, _. split; [reflexivity |]. unfold got. cbn.
    assert (NA : l <> LAux1).
    { destruct r as [n | x]; [subst l; discriminate |].
      destruct W as [[_ W] | [_ W]]; rewrite W; discriminate. }
    parts; auto; try discriminate.
    + destruct l; auto; congruence.
    + intros k' Hk. apply M. lia.
  - destruct T as (B1 & B2 & T). cbn [pop_two].
    assert (S1 : Simple ct (us s) this r1).
    { destruct T as [(T & _) | (T & _)]; auto. now apply plain_simple. }
    destruct (load_reg_ok ct s lb this r1 u1 v1) as
      (s1 & l1 & L1 & U1 & E1 & Sp1 & M1 & A11 & A12 & R1 & W1); auto.
    rewrite L1.
    assert (S2 : Simple ct u1 this r2).
    { destruct T as [(T & T2 & _) | (_ & T)].
      - destruct O1; cbn in T; auto. exfalso. eapply plain_not_prop; eauto.
      - apply plain_simple. now apply T with v1. }
    destruct (load_reg_ok ct s1 lb this r2 u2 v2) as
      (s2 & l2 & L2 & U2 & E2 & Sp2 & M2 & A21 & A22 & R2 & W2); auto.
    { rewrite U1. eapply operand_ext; [| exact O2]. destruct r2; auto. cbn in B2. symmetry. symmetry. apply M1. lia. }
    { now rewrite U1. }
    rewrite L2. eexists _, _, _. split; [reflexivity |]. unfold got.
    assert (NA : forall r l (P Q : Prop), match r with
      | RLoc n => l = LStk (lb + n)%nat
      | RThis x => P /\ l = LFld this x \/ Q /\ l = LStk (S (sp s1)) end ->
      Below lb (sp s) r -> l <> LStk (sp s) /\ l <> LAux1).
    { intros r l P Q W B. destruct r; cbn in B.
      - subst l. split; [| discriminate]. intro C. injection C. lia.
      - destruct W as [[_ W] | [_ W]]; rewrite W; split; try discriminate. intro C. injection C. lia. }
    assert (NA2 : l2 <> LStk (sp s) /\ l2 <> LAux1).
    { destruct r2; [apply (NA (RLoc n) l2 True True W2 B2) |].
      apply (NA (RThis x) l2 _ _ W2 B2). }
    cbn [const_right]. parts; auto; try discriminate; try tauto.
    + (* the left operand is still there *)
      rewrite <- R1. destruct T as [(T & T2 & T3) | (_ & T)].
      * destruct r1 as [n | x].
        -- subst l1. cbn. apply M2. cbn in B1. lia.
        -- destruct W1 as [[_ W1] | [[q W1] _]]; [| exfalso; eapply plain_not_prop; eauto].
           subst l1. cbn. rewrite U2, T3, U1. inversion O1; subst; auto.
           exfalso. eapply plain_not_prop; eauto.
      * specialize (T u1 v1 O1).
        assert (Q : s2 = s1).
        { destruct r2 as [n | x]; cbn in L2; [congruence |].
          cbn in T. destruct T as (c & C & F). rewrite <- U1 in C. apply class_at_of in C.
          rewrite C, F in L2. congruence. }
        now rewrite Q.
    + congruence.
    + intros k Hk. rewrite M2; [apply M1 |]; lia.
Qed.

Lemma opt_dec : forall a b : option stk, {a = b} + {a <> b}.
Proof. repeat decide equality. Qed.

(** The call of the operator function *)
Lemma args_two : forall s v1 v2,
  args_at (mem (push (push s v1) v2)) (sp s) 2 = [v1; v2].
Proof.
  intros s v1 v2. cbn. unfold upd. cbn. rewrite Nat.eqb_refl.
  destruct (Nat.eqb_spec (sp s) (S (sp s))); [lia | reflexivity].
Qed.

Definition more (s : vm) (n : nat) : list stk := args_at (mem s) (sp s + 2) n.

Lemma args_more : forall s v1 v2 n,
  args_at (mem (push (push s v1) v2)) (sp s) (2 + n) = v1 :: v2 :: more s n.
Proof.
  intros s v1 v2 n. unfold args_at. cbn [seq map Nat.add]. f_equal; [| f_equal].
  - rewrite mem_push_other by (cbn; lia). apply mem_push_same.
  - apply (mem_push_same (push s v1) v2).
  - unfold more, args_at. replace (S (S (sp s))) with (sp s + 2)%nat by lia.
    apply map_ext_in. intros k Hk. apply in_seq in Hk.
    rewrite !mem_push_other by (cbn; lia). reflexivity.
Qed.

Lemma run_meta_static : forall ct s m o l1 l2 f n u v,
  err s = false -> l2 <> LStk (sp s) ->
  Operator ct (us s) o m f -> f_params f = (2 + n)%nat -> (f_params f <= f_locals f)%nat ->
  Gives f (us s) None (rd s l1 :: rd s l2 :: more s n) u v ->
  Result s (sp s) u v (run_meta ct s m o true l1 l2).
Proof.
  intros ct s m o l1 l2 f n u v E N Op P Lc G.
  destruct Op as (c & C & F & St). apply class_at_of in C.
  unfold run_meta. rewrite C, F, St. cbn [xorb].
  assert (R2 : rd (push s (rd s l1)) l2 = rd s l2).
  { destruct l2; cbn; auto. unfold upd. destruct (Nat.eqb_spec n0 (sp s)); congruence. }
  rewrite R2. set (s1 := push (push s (rd s l1)) (rd s l2)).
  assert (G1 : Gives f (us s1) None (args_at (mem s1) (sp s) (f_params f)) u v).
  { rewrite P. unfold s1. rewrite args_more. exact G. }
  pose proof (exec_gives s1 None f (sp s) u v G1) as (X1 & X2 & X3 & _).
  assert (SpN : sp (exec s1 None f (sp s)) <> (sp s + f_locals f)%nat).
  { unfold exec. inversion G1 as [? ? l Q | ? Q]; rewrite Q; cbn; lia. }
  destruct (Nat.eqb_spec (sp (exec s1 None f (sp s))) (sp s + f_locals f)); [congruence |].
  cbn [err push with_mem]. rewrite X2. replace (err s1) with false by (symmetry; exact E).
  unfold Result. eexists. split; [reflexivity |]. cbn -[exec].
  unfold upd at 1. rewrite Nat.eqb_refl. parts; auto.
  - rewrite X2. exact E.
  - intros k Hk. unfold upd. destruct (Nat.eqb_spec k (sp s)); [lia |].
    rewrite exec_below by exact Hk. unfold s1. rewrite !mem_push_other by (cbn; lia). reflexivity.
Qed.

(** An operator instruction with a builtin result *)
Lemma op_push : forall ct s lb this f o u v1 v2 p v,
  err s = false -> Operands ct (mem s) (sp s) lb this (us s) f u v1 v2 p ->
  Tame ct (mem s) (sp s) lb this (us s) u f ->
  apply_op o u v1 v2 = Push v -> Result s p u v (op_instr ct s lb this o f).
Proof.
  intros ct s lb this f o u v1 v2 p v E O T A.
  destruct (pop_two_ok ct s lb this f u v1 v2 p E O T) as (s' & l1 & l2 & P & Gt & _).
  destruct Gt as (R1 & R2 & U & Sp & E' & M & _).
  unfold op_instr. rewrite P. unfold do_op. rewrite R1, R2, U, A.
  assert (Q : Result s p u v (Go (push s' v))).
  { eexists. split; [reflexivity |]. cbn. rewrite Sp. unfold upd. rewrite Nat.eqb_refl. parts; auto.
    intros k Hk. destruct (Nat.eqb_spec k p); [lia |]. now apply M. }
  destruct o; exact Q.
Qed.

(** What [call_meta2] asks for *)
Lemma call_meta2_asked : forall h t m a b m' o a' b',
  call_meta2 h t m a b = CallMeta m' o a' b' -> m' = m /\ a' = a /\ b' = b /\ Asked a b o.
Proof.
  intros h t m a b m' o a' b' H. unfold call_meta2 in H. unfold Asked.
  destruct (obj_of h a) as [oa |]; [| discriminate].
  destruct (obj_of h b) as [ob |]; [| discriminate].
  assert (R : (if has (props a) P_OBJECT then CallMeta m (val a) a b
               else if has (props b) P_OBJECT then CallMeta m (val b) a b else Fail) = CallMeta m' o a' b').
  { cbv zeta in H. destruct (match m with M_ADD => true | _ => false end); [| exact H].
    destruct oa as [[] |], ob as [[] |]; try discriminate; exact H. }
  destruct (has (props a) P_OBJECT); [| destruct (has (props b) P_OBJECT); [| discriminate]];
    injection R as <- <- <- <-; auto 8.
Qed.
Definition op_meta (o : binop) : meta :=
  match o with
  | OAdd => M_ADD | OSub => M_SUB | OMul => M_MUL | ODiv => M_DIV | OMod => M_MOD
  | OBit b => bop_meta b | OCmp c => cmp_meta c
  end.
Lemma apply_op_asked : forall o u a b m' ob a' b',
  apply_op o u a b = CallMeta m' ob a' b' ->
  call_meta2 (hp u) (txt u) (op_meta o) a b = CallMeta m' ob a' b'.
Proof.
  intros o u a b m' ob a' b' H.
  assert (PI : forall z, push_int z <> CallMeta m' ob a' b').
  { intros z. unfold push_int. destruct (in64 z); discriminate. }
  assert (PO : forall z, push_oint z <> CallMeta m' ob a' b').
  { intros [z |]; [apply PI | discriminate]. }
  destruct o as [| | | | | x | c]; cbn in H |- *;
    unfold op_add, op_sub, op_mul, op_arith, op_div, op_mod, op_bits, op_cmp, push_float, push_bool in H;
    repeat match type of H with
    | (if ?c then _ else _) = _ => destruct c
    end; try discriminate; try (exfalso; eapply PI; eassumption); try (exfalso; eapply PO; eassumption); auto.
  all: destruct (obj_of (hp u) a) as [[[] |] |]; try discriminate;
    destruct (obj_of (hp u) b) as [[[] |] |]; try discriminate;
    repeat match type of H with
    | (if ?c then _ else _) = _ => destruct c
    end; try discriminate; auto.
Qed.

(** Arithmetic and bit operators *)
Lemma op_call : forall ct s lb this f o u v1 v2 p m ob a b g n u' v,
  err s = false -> Operands ct (mem s) (sp s) lb this (us s) f u v1 v2 p ->
  Tame ct (mem s) (sp s) lb this (us s) u f ->
  (match o with OCmp _ => const_right f = false | _ => True end) ->
  apply_op o u v1 v2 = CallMeta m ob a b ->
  Operator ct u ob m g -> f_params g = (2 + n)%nat -> (f_params g <= f_locals g)%nat ->
  (forall s0, sp s0 = p -> (forall k, (k < p)%nat -> mem s0 k = mem s k) ->
     exists l, more s0 n = l /\ Gives g u None (v1 :: v2 :: l) u' v) ->
  Result s p u' v (op_instr ct s lb this o f).
Proof.
  intros ct s lb this f o u v1 v2 p m ob a b g n u' v E O T K A Op Pn Lc G.
  destruct (pop_two_ok ct s lb this f u v1 v2 p E O T) as (s' & l1 & l2 & P & Gt & NA & _).
  destruct Gt as (R1 & R2 & U & Sp & E' & M & N).
  destruct (G s' Sp M) as (lm & EL & GL).
  unfold op_instr. rewrite P.
  assert (Q : forall s2 a1 a2, mem s2 = mem s' -> sp s2 = sp s' -> us s2 = us s' -> err s2 = err s' ->
    rd s2 a1 = v1 -> rd s2 a2 = v2 -> a2 <> LStk (sp s2) ->
    Result s p u' v (run_meta ct s2 m ob true a1 a2)).
  { intros s2 a1 a2 Q1 Q2 Q3 Q4 Q5 Q6 Q7.
    destruct (run_meta_static ct s2 m ob a1 a2 g n u' v) as (s3 & W1 & W2 & W3 & W4 & W5 & W6); auto.
    - congruence.
    - now rewrite Q3, U.
    - rewrite Q5, Q6, Q3, U. unfold more. rewrite Q1, Q2. unfold more in EL. rewrite EL. exact GL.
    - exists s3. rewrite Q2, Sp in *. rewrite Q1 in W6. parts; auto.
      intros k Hk. rewrite W6 by lia. now apply M. }
  pose proof (apply_op_asked _ _ _ _ _ _ _ _ A) as A'.
  unfold do_op. rewrite R1, R2, U, A. destruct o as [| | | | | x | c]; try (apply Q; auto; congruence).
  cbn [op_meta] in A'.
  assert (R2' : rd (Vm (mem s') (sp s') (rd s' l1) (aux2 s') (us s') (err s')) l2 = v2).
  { rewrite <- R2. destruct l2; auto. now specialize (NA K). }
  rewrite R1, U in R2'.
  cbn [mem sp aux1 us err rd aux2]. rewrite R2', A'.
  cbn [finish]. apply Q; auto; try congruence.
Qed.

(** The comparison of a variable with a constant *)
Lemma cmp_const_right : forall ct s lb this r k c u v1 p m ob a b g u' v,
  err s = false -> Operands ct (mem s) (sp s) lb this (us s) (FRK r k) u v1 k p ->
  Tame ct (mem s) (sp s) lb this (us s) u (FRK r k) ->
  has (props v1) P_OBJECT = true ->
  apply_op (OCmp c) u v1 k = CallMeta m ob a b ->
  Operator ct u ob m g -> f_params g = 2%nat -> (2 <= f_locals g)%nat ->
  Gives g u None [v1; v1] u' v ->
  Result s p u' v (op_instr ct s lb this (OCmp c) (FRK r k)).
Proof.
  intros ct s lb this r k c u v1 p m ob a b g u' v E O T H A Op Pn Lc G.
  destruct (pop_two_ok ct s lb this _ u v1 k p E O T) as (s' & l1 & l2 & P & Gt & _ & K & NA1).
  destruct Gt as (R1 & R2 & U & Sp & E' & M & N). specialize (K eq_refl). subst l2.
  unfold op_instr. rewrite P. unfold do_op. rewrite R1, R2, U, A.
  apply apply_op_asked in A. cbn [op_meta] in A.
  cbn [mem sp aux1 us err rd aux2].
  assert (A2 : call_meta2 (hp u) (txt u) (cmp_meta c) v1 v1 = CallMeta m ob v1 v1).
  { destruct (call_meta2_asked _ _ _ _ _ _ _ _ _ A) as (-> & -> & -> & [(_ & ->) | (X & _)]); [| congruence].
    unfold call_meta2 in *. destruct (obj_of (hp u) v1); [| discriminate].
    rewrite H in *. destruct c; reflexivity. }
  rewrite A2. cbn [finish].
  destruct (run_meta_static ct (Vm (mem s') (sp s') v1 v1 (us s') (err s')) m ob LAux1 LAux2 g 0 u' v)
    as (s3 & W1 & W2 & W3 & W4 & W5 & W6); auto; cbn [us sp mem err].
  - discriminate.
  - now rewrite U.
  - lia.
  - rewrite U. exact G.
  - rewrite U in W1. exists s3. cbn in W2, W3, W6. rewrite Sp in *. parts; auto.
    intros k' Hk. rewrite W6 by lia. now apply M.
Qed.

(** No function for the operator in the class asked *)
Lemma no_operator : forall ct s lb this f o u v1 v2 p m ob a b,
  err s = false -> Operands ct (mem s) (sp s) lb this (us s) f u v1 v2 p ->
  Tame ct (mem s) (sp s) lb this (us s) u f ->
  apply_op o u v1 v2 = CallMeta m ob a b ->
  has (props v1) P_OBJECT = true ->
  (forall g, ~ Operator ct u (val v1) m g) ->
  exists s', op_instr ct s lb this o f = Stop s'.
Proof.
  intros ct s lb this f o u v1 v2 p m ob a b E O T A H No.
  destruct (pop_two_ok ct s lb this f u v1 v2 p E O T) as (s' & l1 & l2 & P & Gt & NA & K & _).
  destruct Gt as (R1 & R2 & U & Sp & E' & M & N).
  pose proof (apply_op_asked _ _ _ _ _ _ _ _ A) as A'.
  destruct (call_meta2_asked _ _ _ _ _ _ _ _ _ A') as (-> & -> & -> & [(_ & ->) | (X & _)]); [| congruence].
  assert (Q : forall s2 a1 a2, us s2 = us s' -> exists s3, run_meta ct s2 (op_meta o) (val v1) true a1 a2 = Stop s3).
  { intros s2 a1 a2 Q. unfold run_meta.
    destruct (class_at ct s2 (val v1)) as [c |] eqn:C; [| eauto].
    destruct (find_method c (MOp (op_meta o))) as [g |] eqn:F; [| eauto].
    destruct (f_static g) eqn:St; [| cbn; eauto].
    exfalso. apply (No g). exists c. parts; auto. apply class_at_of in C. now rewrite Q, U in C. }
  unfold op_instr. rewrite P. unfold do_op. rewrite R1, R2, U, A.
  destruct o as [| | | | | x | c]; try (apply Q; reflexivity).
  cbn [op_meta] in A'. cbn [mem sp aux1 us err rd aux2].
  set (w := rd (Vm (mem s') (sp s') v1 (aux2 s') u (err s')) l2).
  assert (A2 : exists b', call_meta2 (hp u) (txt u) (cmp_meta c) v1 w = CallMeta (cmp_meta c) (val v1) v1 b').
  { destruct (const_right f) eqn:CR.
    - specialize (K eq_refl). subst l2. unfold w. cbn [rd aux1]. unfold call_meta2 in *.
      destruct (obj_of (hp u) v1); [| discriminate]. rewrite H in *. exists v1. destruct c; reflexivity.
    - specialize (NA eq_refl). assert (w = v2) as ->.
      { unfold w. rewrite <- R2. destruct l2; auto; try congruence. cbn. now rewrite U. }
      eauto. }
  destruct A2 as (b' & A2). rewrite A2. cbn [finish]. apply Q. cbn. auto.
Qed.

(** Two properties as operands *)
Lemma two_properties : forall ct s lb this x y o u1 u2 v1 v2 v p q g h,
  err s = false ->
  Property ct (us s) this x p -> p_get p = Some g -> f_params g = O -> Gives g (us s) (Some this) [] u1 v1 ->
  Property ct u1 this y q -> p_get q = Some h -> f_params h = O -> f_locals h = O -> Gives h u1 (Some this) [] u2 v2 ->
  apply_op o u2 v2 v2 = Push v ->
  Result s (sp s) u2 v (op_instr ct s lb this o (FRR (RThis x) (RThis y))).
Proof.
  intros ct s lb this x y o u1 u2 v1 v2 v p q g h E P1 G1 Z1 W1 P2 G2 Z2 Y2 W2 A.
  destruct P1 as (c & C & F). apply class_at_of in C.
  unfold op_instr. cbn [pop_two load_reg]. rewrite C, F, G1.
  destruct (inner_gives (with_mem s (mem s) (S (sp s))) (Some this) g false u1 v1 E) as
      (s' & I & U & E' & Sp & B & _).
  { rewrite Z1. exact W1. }
  rewrite I. destruct P2 as (c' & C' & F'). rewrite <- U in C'.
  change (Class_of ct (us (with_mem s' (mem s') (sp s))) this c') in C'. apply class_at_of in C'.
  rewrite C', F', G2.
  destruct (inner_gives (with_mem (with_mem s' (mem s') (sp s)) (mem s') (S (sp s))) (Some this) h false u2 v2 E') as
      (s2 & I2 & U2 & E2 & Sp2 & B2 & R2 & _).
  { rewrite Z2. cbn [us with_mem mem]. rewrite U. exact W2. }
  cbn [mem sp with_mem] in *. rewrite I2. cbn in Sp, Sp2. unfold do_op. cbn [rd mem with_mem us]. rewrite Sp, Sp2.
  specialize (R2 (or_intror Y2)). cbn in R2. rewrite R2, U2, A.
  assert (Q : Result s (sp s) u2 v (Go (push (with_mem s2 (mem s2) (sp s)) v))).
  { eexists. split; [reflexivity |]. cbn. unfold upd. rewrite Nat.eqb_refl. parts; auto.
    intros k Hk. destruct (Nat.eqb_spec k (sp s)); [lia |]. cbn in B, B2. rewrite B2 by lia. apply B. lia. }
  destruct o; exact Q.
Qed.

(** A member variable that the getter of the right operand writes *)
Lemma changed_member : forall ct s lb this x y o u v2 v q h,
  err s = false ->
  Variable_ ct (us s) this x ->
  Property ct (us s) this y q -> p_get q = Some h -> f_params h = O -> f_locals h = O ->
  Gives h (us s) (Some this) [] u v2 ->
  apply_op o u (fld u this x) v2 = Push v ->
  Result s (sp s) u v (op_instr ct s lb this o (FRR (RThis x) (RThis y))).
Proof.
  intros ct s lb this x y o u v2 v q h E V P2 G2 Z2 Y2 W2 A.
  destruct V as (c & C & F). apply class_at_of in C.
  unfold op_instr. cbn [pop_two load_reg]. rewrite C, F.
  destruct P2 as (c' & C' & F'). apply class_at_of in C'. rewrite C in C'. injection C' as <-.
  rewrite C, F', G2.
  destruct (inner_gives (with_mem s (mem s) (S (sp s))) (Some this) h false u v2 E) as
      (s' & I & U & E' & Sp & B & R & _).
  { rewrite Z2. exact W2. }
  rewrite I. specialize (R (or_intror Y2)). cbn in R, Sp. unfold do_op. cbn [rd mem with_mem us]. rewrite Sp.
  rewrite R, U, A.
  assert (Q : Result s (sp s) u v (Go (push (with_mem s' (mem s') (sp s)) v))).
  { eexists. split; [reflexivity |]. cbn. unfold upd. rewrite Nat.eqb_refl. parts; auto.
    intros k Hk. destruct (Nat.eqb_spec k (sp s)); [lia |]. cbn in B. apply B. lia. }
  destruct o; exact Q.
Qed.

(** *** Classes *)
Definition hit (m : mm) (p : mm * fn) : bool := if mm_eq_dec (fst p) m then true else false.
Lemma hit_true : forall m p, hit m p = true <-> fst p = m.
Proof. intros m p. unfold hit. destruct (mm_eq_dec (fst p) m); split; congruence. Qed.

Lemma find_app : forall A (f : A -> bool) a b,
  find f (a ++ b) = match find f a with Some x => Some x | None => find f b end.
Proof. induction a as [| x a IH]; intro b; cbn; auto. destruct (f x); auto. Qed.
Lemma find_prop_app : forall c l x,
  find (fun p : string * prop => String.eqb (fst p) x) (c_props c ++ l) =
  match find (fun p => String.eqb (fst p) x) (c_props c) with Some q => Some q | None => find (fun p => String.eqb (fst p) x) l end.
Proof. intros. apply find_app. Qed.

(** One declaration *)
Lemma add_method_find : forall c m f c' m',
  add_method c m f = Some c' ->
  find_method c' m' = if mm_eq_dec m m' then Some f else find_method c m'.
Proof.
  intros c m f c' m' H. unfold add_method in H.
  destruct (existsb _ _); [discriminate |]. destruct (xorb _ _); [discriminate |].
  destruct (Nat.ltb _ _); [discriminate |].
  assert (Q : c_methods c' = c_methods c ++ [(m, f)]).
  { destruct m as [[] | a | i | | |];
      try (injection H as <-; reflexivity); try discriminate.
    - destruct (c_neg c); [discriminate |]. injection H as <-. reflexivity.
    - destruct (c_bwc c); [discriminate |]. injection H as <-. reflexivity.
    - destruct (c_set c a); [discriminate |]. injection H as <-. reflexivity.
    - destruct (c_inc c i); [discriminate |]. injection H as <-. reflexivity. }
  unfold find_method. rewrite Q, rev_app_distr. cbn. now destruct (mm_eq_dec m m').
Qed.
Lemma add_prop_find_method : forall c x l c' m, add_prop c x l = Some c' -> find_method c' m = find_method c m.
Proof.
  intros c x l c' m H. unfold add_prop in H. destruct (find_prop c x); [discriminate |].
  destruct (add_prop_fns no_prop l); [| discriminate]. injection H as <-. reflexivity.
Qed.
Lemma add_method_prop : forall c m f c' x, add_method c m f = Some c' -> find_prop c' x = find_prop c x.
Proof.
  intros c m f c' x H. unfold add_method in H.
  destruct (existsb _ _); [discriminate |]. destruct (xorb _ _); [discriminate |].
  destruct (Nat.ltb _ _); [discriminate |].
  destruct m as [[] | a | i | | |]; try (injection H as <-; reflexivity); try discriminate.
  - destruct (c_neg c); [discriminate |]. injection H as <-. reflexivity.
  - destruct (c_bwc c); [discriminate |]. injection H as <-. reflexivity.
  - destruct (c_set c a); [discriminate |]. injection H as <-. reflexivity.
  - destruct (c_inc c i); [discriminate |]. injection H as <-. reflexivity.
Qed.
Lemma add_prop_prop : forall c x l c' y, add_prop c x l = Some c' ->
  exists p, add_prop_fns no_prop l = Some p /\ find_prop c x = None /\
  find_prop c' y = (if String.eqb x y then Some p else find_prop c y).
Proof.
  intros c x l c' y H. unfold add_prop in H. destruct (find_prop c x) eqn:F; [discriminate |].
  destruct (add_prop_fns no_prop l) as [p |]; [| discriminate]. injection H as <-.
  exists p. parts; auto. unfold find_prop in *. cbn [c_props]. rewrite find_prop_app.
  destruct (find _ (c_props c)) as [q |] eqn:Q in F; [discriminate |].
  destruct (String.eqb_spec x y) as [-> | N].
  - rewrite Q. cbn. now rewrite String.eqb_refl.
  - destruct (find (fun p0 : string * prop => String.eqb (fst p0) y) (c_props c)) as [q |]; auto. cbn.
    destruct (String.eqb_spec x y); congruence.
Qed.

(** own functions *)
Lemma add_method_own : forall c m f c' a i, add_method c m f = Some c' ->
  c_set c' a = (if mm_eq_dec m (MAsg a) then Some f else c_set c a) /\
  c_inc c' i = (if mm_eq_dec m (MInc i) then Some f else c_inc c i).
Proof.
  intros c m f c' a i H. unfold add_method in H.
  destruct (existsb _ _); [discriminate |]. destruct (xorb _ _); [discriminate |].
  destruct (Nat.ltb _ _); [discriminate |].
  destruct m as [[] | a' | i' | | |]; try (injection H as <-; cbn; split; reflexivity); try discriminate.
  - destruct (c_neg c); [discriminate |]. injection H as <-. cbn; split; reflexivity.
  - destruct (c_bwc c); [discriminate |]. injection H as <-. cbn; split; reflexivity.
  - destruct (c_set c a'); [discriminate |]. injection H as <-. cbn [c_set c_inc]. unfold put.
    split; [| reflexivity].
    destruct (aop_eq_dec a a'), (mm_eq_dec (MAsg a') (MAsg a)); congruence.
  - destruct (c_inc c i'); [discriminate |]. injection H as <-. cbn [c_set c_inc]. unfold put.
    split; [reflexivity |].
    destruct (inc_eq_dec i i'), (mm_eq_dec (MInc i') (MInc i)); congruence.
Qed.
Lemma add_prop_own : forall c x l c' a i, add_prop c x l = Some c' ->
  c_set c' a = c_set c a /\ c_inc c' i = c_inc c i.
Proof.
  intros c x l c' a i H. unfold add_prop in H. destruct (find_prop c x); [discriminate |].
  destruct (add_prop_fns no_prop l); [| discriminate]. injection H as <-. auto.
Qed.

(** a class has at most one function of its own for a metamethod *)
Lemma add_method_inh : forall c m f c', add_method c m f = Some c' ->
  c_inh c' = c_inh c /\ c_methods c' = c_methods c ++ [(m, f)] /\
  mm_static m = f_static f /\ (mm_args m <= f_params f)%nat /\
  existsb (hit m) (skipn (c_inh c) (c_methods c)) = false.
Proof.
  intros c m f c' H. unfold add_method in H. fold (hit m) in H.
  destruct (existsb _ _); [discriminate |]. destruct (xorb _ _) eqn:X; [discriminate |].
  destruct (Nat.ltb_spec (f_params f) (mm_args m)); [discriminate |].
  apply xorb_eq in X.
  assert (Q : c_inh c' = c_inh c /\ c_methods c' = c_methods c ++ [(m, f)]).
  { destruct m as [[] | a | i | | |];
      try (injection H as <-; split; reflexivity); try discriminate.
    - destruct (c_neg c); [discriminate |]. injection H as <-. auto.
    - destruct (c_bwc c); [discriminate |]. injection H as <-. auto.
    - destruct (c_set c a); [discriminate |]. injection H as <-. auto.
    - destruct (c_inc c i); [discriminate |]. injection H as <-. auto. }
  tauto.
Qed.

Lemma decls_find : forall ds c c' m,
  add_decls c ds = Some c' ->
  (exists f, Declares ds m f /\ find_method c' m = Some f) \/
  ((forall f, ~ Declares ds m f) /\ find_method c' m = find_method c m).
Proof.
  induction ds as [| d ds IH]; intros c c' m H; cbn in H.
  - injection H as <-. right. split; [intros f [] | reflexivity].
  - destruct (add_decl c d) as [c1 |] eqn:D; [| discriminate].
    destruct (IH c1 c' m H) as [(f & I & F) | (N & F)].
    + left. exists f. split; [right; exact I | exact F].
    + destruct d as [m0 f0 | x l]; cbn in D.
      * rewrite F, (add_method_find _ _ _ _ m D). destruct (mm_eq_dec m0 m) as [-> | Ne].
        -- left. exists f0. split; [left; reflexivity | reflexivity].
        -- right. split; [| reflexivity]. intros f [C | C]; [congruence | now apply (N f)].
      * right. rewrite F, (add_prop_find_method _ _ _ _ m D). split; [| reflexivity].
        intros f [C | C]; [congruence | now apply (N f)].
Qed.
Lemma decls_own : forall ds c c' a,
  add_decls c ds = Some c' ->
  (exists f, Declares ds (MAsg a) f /\ c_set c' a = Some f) \/
  ((forall f, ~ Declares ds (MAsg a) f) /\ c_set c' a = c_set c a).
Proof.
  induction ds as [| d ds IH]; intros c c' a H; cbn in H.
  - injection H as <-. right. split; [intros f [] | reflexivity].
  - destruct (add_decl c d) as [c1 |] eqn:D; [| discriminate].
    destruct (IH c1 c' a H) as [(f & I & F) | (N & F)].
    + left. exists f. split; [right; exact I | exact F].
    + destruct d as [m0 f0 | x l]; cbn in D.
      * rewrite F, (proj1 (add_method_own _ _ _ _ a PostInc D)). destruct (mm_eq_dec m0 (MAsg a)) as [-> | Ne].
        -- left. exists f0. split; [left; reflexivity | reflexivity].
        -- right. split; [| reflexivity]. intros f [C | C]; [congruence | now apply (N f)].
      * right. rewrite F, (proj1 (add_prop_own _ _ _ _ a PostInc D)). split; [| reflexivity].
        intros f [C | C]; [congruence | now apply (N f)].
Qed.
Lemma decls_inc : forall ds c c' i,
  add_decls c ds = Some c' ->
  (exists f, Declares ds (MInc i) f /\ c_inc c' i = Some f) \/
  ((forall f, ~ Declares ds (MInc i) f) /\ c_inc c' i = c_inc c i).
Proof.
  induction ds as [| d ds IH]; intros c c' i H; cbn in H.
  - injection H as <-. right. split; [intros f [] | reflexivity].
  - destruct (add_decl c d) as [c1 |] eqn:D; [| discriminate].
    destruct (IH c1 c' i H) as [(f & I & F) | (N & F)].
    + left. exists f. split; [right; exact I | exact F].
    + destruct d as [m0 f0 | x l]; cbn in D.
      * rewrite F, (proj2 (add_method_own _ _ _ _ ASet i D)). destruct (mm_eq_dec m0 (MInc i)) as [-> | Ne].
        -- left. exists f0. split; [left; reflexivity | reflexivity].
        -- right. split; [| reflexivity]. intros f [C | C]; [congruence | now apply (N f)].
      * right. rewrite F, (proj2 (add_prop_own _ _ _ _ ASet i D)). split; [| reflexivity].
        intros f [C | C]; [congruence | now apply (N f)].
Qed.
Lemma decls_prop : forall ds c c' x,
  add_decls c ds = Some c' ->
  (forall p, find_prop c x = Some p -> find_prop c' x = Some p /\ ~ Declares_prop ds x) /\
  (forall l, find_prop c x = None -> In (DProp x l) ds ->
     exists p, add_prop_fns no_prop l = Some p /\ find_prop c' x = Some p) /\
  (find_prop c x = None -> ~ Declares_prop ds x -> find_prop c' x = None).
Proof.
  induction ds as [| d ds IH]; intros c c' x H; cbn in H.
  - injection H as <-. parts.
    + intros p F. split; auto. intros (l & []).
    + intros l _ [].
    + auto.
  - destruct (add_decl c d) as [c1 |] eqn:D; [| discriminate].
    destruct (IH c1 c' x H) as (I1 & I2 & I3). destruct d as [m0 f0 | y l0]; cbn in D.
    + pose proof (add_method_prop _ _ _ _ x D) as Q. rewrite Q in *. parts.
      * intros p F. destruct (I1 p F) as (A & B). split; auto. intros (l & [C | C]); [discriminate |]. apply B. now exists l.
      * intros l F [C | C]; [discriminate |]. now apply I2.
      * intros F N. apply I3; auto. intros (l & C). apply N. exists l. now right.
    + destruct (add_prop_prop _ _ _ _ x D) as (p0 & P0 & Fy & Q). rewrite Q in *.
      destruct (String.eqb_spec y x) as [-> | Ne].
      * destruct (I1 p0 eq_refl) as (A & B). parts.
        -- intros p F. congruence.
        -- intros l F [C | C]; [injection C as <-; eauto |]. exfalso. apply B. now exists l.
        -- intros F N. exfalso. apply N. exists l0. now left.
      * parts.
        -- intros p F. destruct (I1 p F) as (A & B). split; auto. intros (l & [C | C]); [congruence |]. apply B. now exists l.
        -- intros l F [C | C]; [congruence |]. now apply I2.
        -- intros F N. apply I3; auto. intros (l & C). apply N. exists l. now right.
Qed.

(** A declaration of a property the class has already is refused *)
Lemma decls_prop_refused : forall ds c x p,
  find_prop c x = Some p -> Declares_prop ds x -> add_decls c ds = None.
Proof.
  intros ds c x p F (l & I). destruct (add_decls c ds) as [c' |] eqn:E; auto.
  destruct (decls_prop ds c c' x E) as (A & _). destruct (A p F) as (_ & B). exfalso. apply B. now exists l.
Qed.

(** Every function registered has what its metamethod needs *)
Lemma decls_arity : forall ds c c' m f,
  add_decls c ds = Some c' -> Declares ds m f ->
  mm_static m = f_static f /\ (mm_args m <= f_params f)%nat.
Proof.
  induction ds as [| d ds IH]; intros c c' m f H I; [destruct I |]. cbn in H.
  destruct (add_decl c d) as [c1 |] eqn:D; [| discriminate]. destruct I as [-> | I].
  - cbn in D. destruct (add_method_inh _ _ _ _ D) as (_ & _ & A & B & _). auto.
  - eapply IH; eauto.
Qed.

(** *** Stores *)
Lemma run_setter_gives : forall s o f v u r,
  f_params f = 1%nat -> Gives f (us s) (Some o) [v] u r ->
  let s' := run_setter s o f v in
  us s' = u /\ sp s' = sp s /\ err s' = err s /\ (forall k, (k <= sp s)%nat -> mem s' k = mem s k).
Proof.
  intros s o f v u r P G. unfold run_setter. cbv zeta. cbn [us sp err mem with_mem].
  set (s1 := with_mem s (upd (mem s) (S (sp s)) v) (sp s)).
  assert (G1 : Gives f (us s1) (Some o) (args_at (mem s1) (S (sp s)) (f_params f)) u r).
  { rewrite P. cbn. unfold upd. rewrite Nat.eqb_refl. exact G. }
  destruct (exec_gives s1 (Some o) f (S (sp s)) u r G1) as (X1 & X2 & _).
  parts; auto. intros k Hk. rewrite exec_below by lia. cbn. unfold upd.
  destruct (Nat.eqb_spec k (S (sp s))); [lia | reflexivity].
Qed.
Lemma run_setter_fails : forall s o f v,
  f_params f = 1%nat -> Fails f (us s) (Some o) [v] ->
  let s' := run_setter s o f v in
  us s' = fst (f_body f (us s) (Some o) [v]) /\ sp s' = sp s /\ err s' = true /\
  (forall k, (k <= sp s)%nat -> mem s' k = mem s k).
Proof.
  intros s o f v P F. unfold run_setter. cbv zeta. cbn [us sp err mem with_mem].
  set (s1 := with_mem s (upd (mem s) (S (sp s)) v) (sp s)).
  assert (A : args_at (mem s1) (S (sp s)) (f_params f) = [v]).
  { rewrite P. cbn. unfold upd. now rewrite Nat.eqb_refl. }
  destruct (exec_fails s1 (Some o) f (S (sp s))) as (X1 & X2 & X3).
  { rewrite A. exact F. }
  rewrite A in X3. parts; auto. intros k Hk. rewrite exec_below by lia. cbn. unfold upd.
  destruct (Nat.eqb_spec k (S (sp s))); [lia | reflexivity].
Qed.
