(** Claims C171-C172: what the operator [in] answers, and that it answers at all. *)
From Coq Require Import List ZArith Bool Lia.
From Verif Require Import Base StringModel ValueModel ValueProofs ArrayModel InModel.
Import ListNotations.
Local Open Scope Z_scope.
Local Arguments match_elem : simpl never.
Local Arguments Z.pow : simpl never.

(** ** The claim, without the model's functions *)

(** Script values; a float is given by its 64 bits. *)
Inductive sval := IntV (z : Z) | FloatV (w : Z) | BoolV (b : bool) | TextV (s : list Z).

(** The bits that may mark a value in a place: a constant variable is read-only. *)
Definition kind (v : sval) : Z :=
  match v with IntV _ => P_INT | FloatV _ => P_FLOAT | BoolV _ => P_BOOL | TextV _ => P_OBJECT end.
Definition flat (v : sval) : Z :=
  match v with IntV z => z | FloatV w => w | BoolV b => Z.b2z b | TextV _ => 0 end.

Section Claim.
Variable h : heap.
Variable items : Z -> list stk.
Variable keys : Z -> list (list Z).
Variable text : Z -> list Z.
Variable cell : Z -> option stk.
Variable src : Z -> option Z.

(** [e] holds the value [v]. *)
Definition holds (e : stk) (v : sval) : Prop :=
  match v with
  | TextV s => h (val e) = Some (OStr s) /\ cbytes s
  | _ => val e = flat v
  end.
(** An element of an array holding [v]. *)
Definition element (e : stk) (v : sval) : Prop := props e = kind v /\ holds e v.
(** An operand that stands for [v]: a temporary or a constant, or a read-only variable; a
    text read from a field or an element; a reference to such a variable. *)
Definition direct (e : stk) (v : sval) : Prop :=
  (props e = kind v \/ props e = Z.lor (kind v) P_READ_ONLY) /\ holds e v.
Definition fielded (e : stk) (s : list Z) : Prop := props e = P_OBJECT_IN_CONTAINER /\ holds e (TextV s).
Definition operand (e : stk) (v : sval) : Prop :=
  direct e v \/ (exists s, v = TextV s /\ fielded e s) \/
  (exists e', props e = P_PTR_STK /\ cell (val e) = Some e' /\ direct e' v).

(** The right operand is the object at [a]: directly, read-only, out of a field, or inside
    another object. *)
Definition object_at (y : stk) (a : Z) : Prop :=
  (val y = a /\ (props y = P_OBJECT \/ props y = Z.lor P_OBJECT P_READ_ONLY \/ props y = P_OBJECT_IN_CONTAINER)) \/
  (props y = P_CONTAINER_SLOT /\ src (val y) = Some a).

(** Membership. *)
Definition in_text (v : sval) (s : list Z) : Prop :=
  match v with
  | IntV c => In c s
  | TextV p => exists a b, s = a ++ p ++ b
  | _ => False
  end.
Definition in_array (v : sval) (l : list sval) : Prop := In v l.

(** ** Reading the operands *)
Lemma unwrap_direct e v : direct e v -> unwrap cell src e = Some (Stk (val e) (kind v)).
Proof. intros ([E|E] & _); destruct e as [w p]; cbn in E |- *; subst p; destruct v; reflexivity. Qed.
Lemma unwrap_operand e v : operand e v ->
  exists w, unwrap cell src e = Some (Stk w (kind v)) /\ holds (Stk w (kind v)) v.
Proof.
  intros [D|[(s & -> & E & H)|(e' & E & C & D)]].
  - exists (val e). split; [now apply unwrap_direct|]. destruct D as [_ D]. destruct v; exact D.
  - exists (val e). split; [|exact H]. destruct e as [w p]; cbn in E; subst p. reflexivity.
  - exists (val e'). split.
    + pose proof (unwrap_direct e' v D) as U. unfold unwrap in U |- *. rewrite E.
      change (has P_PTR_STK P_PTR_STK) with true. cbv iota zeta. rewrite C.
      destruct D as ([Ep|Ep] & _); destruct e' as [w p]; cbn in Ep; subst p; destruct v; exact U.
    + destruct D as [_ D]. destruct v; exact D.
Qed.
Lemma unwrap_object y a : object_at y a -> unwrap cell src y = Some (Stk a P_OBJECT).
Proof.
  intros [(<- & [E|[E|E]])|(E & S)]; destruct y as [w p]; cbn in E; subst p; try reflexivity.
  cbn in S. unfold unwrap. cbn [props val].
  change (has P_CONTAINER_SLOT P_PTR_STK) with false.
  cbv iota zeta. cbn [props val]. change (has P_CONTAINER_SLOT P_CONTAINER_SLOT) with true. cbv iota. rewrite S. reflexivity.
Qed.

Lemma cut_bytes s : cbytes s -> cut s = s.
Proof.
  induction 1 as [|c s Hc _ IH]; [reflexivity|]. cbn. destruct (Z.eqb_spec c 0); [lia|]. now rewrite IH.
Qed.
Lemma prefix_iff p s : is_prefix p s = true <-> exists b, s = p ++ b.
Proof.
  revert s. induction p as [|x p IH]; intros s.
  - cbn. split; eauto.
  - destruct s as [|y s]; cbn; [split; [discriminate|intros (b & E); discriminate]|].
    rewrite andb_true_iff, Z.eqb_eq, IH. split.
    + intros (-> & b & ->). eauto.
    + intros (b & E). injection E as -> ->. eauto.
Qed.
Lemma occurs_iff p s : occurs p s = true <-> exists a b, s = a ++ p ++ b.
Proof.
  induction s as [|c s IH].
  - cbn. rewrite orb_false_r, prefix_iff. split.
    + intros (b & E). exists [], b. exact E.
    + intros (a & b & E). destruct a; [exists b; exact E|discriminate].
  - cbn [occurs]. rewrite orb_true_iff, prefix_iff, IH. split.
    + intros [(b & E)|(a & b & ->)]; [exists [], b; exact E|exists (c :: a), b; reflexivity].
    + intros ([|x a] & b & E); [left; exists b; exact E|].
      injection E as -> E. right. eauto.
Qed.
Lemma same_iff a b : same_text a b = true <-> a = b.
Proof. unfold same_text. destruct (list_eq_dec Z.eq_dec a b); split; congruence. Qed.

(** ** The answers *)

(** A character or a text in a text. *)
Lemma answer_text x y v a s :
  operand x v -> object_at y a -> h a = Some (OStr s) -> cbytes s ->
  (forall c, v = IntV c -> 0 < c < 256 /\ direct x v) ->
  (exists c, v = IntV c) \/ (exists p, v = TextV p /\ (s = [] -> p <> [])) ->
  exists b, in_op h items keys text cell src x y = Push b /\ (b = true <-> in_text v s).
Proof.
  intros X Y H Hs Hc K. destruct (unwrap_operand x v X) as (w & Ux & Hx).
  unfold in_op. rewrite Ux, (unwrap_object y a Y). cbn [props val].
  change (has P_OBJECT P_OBJECT) with true. cbv iota. rewrite H.
  destruct K as [(c & ->)|(p & -> & Hp)].
  - destruct (Hc c eq_refl) as (Hb & (E & Hv)). cbn in Hv.
    assert (Ei : has (props x) P_INT = true) by (destruct E as [-> | ->]; reflexivity). rewrite Ei.
    eexists. split; [reflexivity|]. unfold char_in. rewrite Hv, Z.mod_small, (cut_bytes s Hs) by lia.
    destruct (Z.eqb_spec c 0); [lia|]. cbn [orb in_text]. rewrite existsb_exists. split.
    + intros (z & Hz & Ez). apply Z.eqb_eq in Ez. now subst.
    + intros Hi. exists c. split; [exact Hi|apply Z.eqb_refl].
  - assert (Ei : has (props x) P_INT = false).
    { destruct X as [([E|E] & _)|[(q & _ & E & _)|(e' & E & _)]]; rewrite E; reflexivity. }
    rewrite Ei. destruct Hx as (Hx & Hb). cbn [val] in Hx.
    unfold obj_of. cbn [props val kind]. change (has P_OBJECT _) with true. cbv iota. rewrite Hx.
    eexists. split; [reflexivity|]. unfold text_in. cbn [in_text].
    destruct s as [|c s'].
    + split; [discriminate|]. intros (a1 & b1 & E). destruct a1; [|discriminate].
      destruct p; [|discriminate]. now destruct (Hp eq_refl).
    + rewrite (cut_bytes _ Hs), (cut_bytes _ Hb). apply occurs_iff.
Qed.

(** An element in an array. *)
Lemma match_one w v e u :
  holds (Stk w (kind v)) v -> element e u ->
  exists b, match_elem h (Stk w (kind v)) e = Some b /\ (b = true <-> u = v).
Proof.
  intros Hv (Ep & Hu). destruct e as [we pe]. cbn in Ep; subst pe. unfold match_elem. cbn [props val].
  destruct v as [z|z|z|s], u as [z'|z'|z'|s']; cbn [kind] in *;
    match goal with |- context [Z.land ?p ?q] => let k := eval vm_compute in (Z.land p q) in change (Z.land p q) with k end;
    cbn [Z.eqb P_BOOL P_INT P_FLOAT P_OBJECT orb Pos.eqb];
    try (eexists; split; [reflexivity|split; discriminate]).
  - cbn in Hv, Hu. subst. eexists. split; [reflexivity|]. rewrite Z.eqb_eq. split; congruence.
  - cbn in Hv, Hu. subst. eexists. split; [reflexivity|]. rewrite Z.eqb_eq. split; congruence.
  - cbn in Hv, Hu. subst. eexists. split; [reflexivity|]. rewrite Z.eqb_eq. destruct z, z'; cbn; split; congruence.
  - destruct Hv as (Hv & Bv), Hu as (Hu & Bu). cbn [val] in Hv, Hu. rewrite Hv, Hu.
    eexists. split; [reflexivity|]. rewrite Z.eqb_eq, (strcmp_eq s s' Bv Bu). split; congruence.
Qed.
Lemma answer_array x y v a l :
  operand x v -> object_at y a -> h a = Some OArr -> Forall2 element (items a) l ->
  exists b, in_op h items keys text cell src x y = Push b /\ (b = true <-> in_array v l).
Proof.
  intros X Y H F. destruct (unwrap_operand x v X) as (w & Ux & Hx).
  unfold in_op. rewrite Ux, (unwrap_object y a Y). cbn [props val].
  change (has P_OBJECT P_OBJECT) with true. cbv iota. rewrite H. clear H.
  unfold in_array. induction F as [|e u es us He F IH].
  - exists false. split; [reflexivity|]. split; [discriminate|intros []].
  - cbn [scan]. destruct (match_one w v e u Hx He) as (b & -> & Hb). destruct b.
    + exists true. split; [reflexivity|]. split; [left; now apply Hb|reflexivity].
    + destruct IH as (b & Eb & Hb'). exists b. split; [exact Eb|]. rewrite Hb'. split; [now right|].
      intros [E|I]; [apply Hb in E; discriminate|exact I].
Qed.

(** A name in an object. *)
Lemma answer_key x y k a :
  direct x (TextV k) -> object_at y a -> h a = Some ODict ->
  exists b, in_op h items keys text cell src x y = Push b /\ (b = true <-> In k (keys a)).
Proof.
  intros X Y H. unfold in_op. rewrite (unwrap_direct x _ X), (unwrap_object y a Y). cbn [props val].
  change (has P_OBJECT P_OBJECT) with true. cbv iota. rewrite H.
  destruct X as (E & Hx & Hb).
  assert (Ei : has (props x) P_OBJECT = true) by (destruct E as [-> | ->]; reflexivity). rewrite Ei.
  eexists. split; [reflexivity|]. unfold shown. rewrite Hx, (cut_bytes k Hb), existsb_exists. split.
  - intros (q & Hq & Eq). apply same_iff in Eq. now subst.
  - intros Hi. exists k. split; [exact Hi|now apply same_iff].
Qed.
End Claim.

(** ** C171: [in] answers whether the left operand is in the right one *)

(** For texts (a byte that is written or a variable directly, a text however it is reached),
    arrays of numbers, truths and texts, and the names of the fields of objects (a text that
    is written, computed or in a variable). *)
Theorem C171_in_membership_partial :
  forall h items keys text cell src x y v a,
  operand h cell x v -> object_at src y a ->
  (forall s, h a = Some (OStr s) -> cbytes s ->
     (exists c, v = IntV c /\ 0 < c < 256 /\ direct h x v) \/ (exists p, v = TextV p /\ (s = [] -> p <> [])) ->
     exists b, in_op h items keys text cell src x y = Push b /\ (b = true <-> in_text v s)) /\
  (forall l, h a = Some OArr -> Forall2 (element h) (items a) l ->
     exists b, in_op h items keys text cell src x y = Push b /\ (b = true <-> In v l)) /\
  (forall k, v = TextV k -> h a = Some ODict -> direct h x v ->
     exists b, in_op h items keys text cell src x y = Push b /\ (b = true <-> In k (keys a))).
Proof.
  intros h items keys text cell src x y v a X Y. split; [|split].
  - intros s H Hs K. apply (answer_text h items keys text cell src x y v a s X Y H Hs).
    + intros c ->. destruct K as [(c' & E & Hc & D)|(p & E & _)]; [|discriminate].
      injection E as <-. auto.
    + destruct K as [(c & E & _)|K]; eauto.
  - intros l H F. exact (answer_array h items keys text cell src x y v a l X Y H F).
  - intros k -> H D. exact (answer_key h items keys text cell src x y k a D Y H).
Qed.
Print Assumptions C171_in_membership_partial.

(** Every text contains the byte 0 and every multiple of 256; a byte is found under all the
    numbers that leave it as the remainder by 256. *)
Theorem C171_in_bytes_refuted :
  forall h items keys text cell src x y a s z,
  direct h x (IntV z) -> object_at src y a -> h a = Some (OStr s) -> cbytes s ->
  exists b, in_op h items keys text cell src x y = Push b /\
    (b = true <-> z mod 256 = 0 \/ In (z mod 256) s) /\
    (in_text (IntV z) s -> 0 < z < 256).
Proof.
  intros h items keys text cell src x y a s z X Y H Hs.
  unfold in_op. rewrite (unwrap_direct h cell src x _ X), (unwrap_object cell src y a Y). cbn [props val].
  change (has P_OBJECT P_OBJECT) with true. cbv iota. rewrite H.
  destruct X as (E & Hv). cbn in Hv.
  assert (Ei : has (props x) P_INT = true) by (destruct E as [-> | ->]; reflexivity). rewrite Ei.
  eexists. split; [reflexivity|]. split.
  - unfold char_in. rewrite Hv, (cut_bytes s Hs), orb_true_iff, Z.eqb_eq, existsb_exists. split.
    + intros [E0|(c & Hc & Ec)]; [now left|right]. apply Z.eqb_eq in Ec. now rewrite Ec.
    + intros [E0|Hi]; [now left|right]. eexists. split; [exact Hi|apply Z.eqb_refl].
  - cbn [in_text]. intros Hi. unfold cbytes in Hs. rewrite Forall_forall in Hs. now apply Hs.
Qed.
Print Assumptions C171_in_bytes_refuted.

(** A number that is read through a reference is no operand for a text: the operator stops. *)
Theorem C171_in_reference_refuted :
  forall h items keys text cell src x y a s e z,
  props x = P_PTR_STK -> cell (val x) = Some e -> direct h e (IntV z) ->
  object_at src y a -> h a = Some (OStr s) ->
  in_op h items keys text cell src x y = Stop.
Proof.
  intros h items keys text cell src x y a s e z E C D Y H.
  destruct (unwrap_operand h cell src x (IntV z)) as (w & U & _); [right; right; eauto|].
  unfold in_op. rewrite U, (unwrap_object cell src y a Y). cbn [props val].
  change (has P_OBJECT P_OBJECT) with true. cbv iota. rewrite H, E. reflexivity.
Qed.
Print Assumptions C171_in_reference_refuted.

(** A value that is in no array: undefined, null and every object but a text, even when it is
    the very element. *)
Theorem C171_in_objects_refuted :
  forall h items keys text cell src x y a,
  object_at src y a -> h a = Some OArr ->
  (forall e, In e (items a) -> has (props e) P_OBJECT = true -> h (val e) <> None) ->
  (props x = P_UNDEFINED \/ props x = P_NULL \/
   (props x = P_OBJECT /\ h (val x) <> None /\ forall s, h (val x) <> Some (OStr s))) ->
  in_op h items keys text cell src x y = Push false.
Proof.
  intros h items keys text cell src x y a Y H He Hx.
  assert (U : unwrap cell src x = Some x).
  { destruct x as [w p]. cbn in Hx. destruct Hx as [-> |[-> |(-> & _)]]; reflexivity. }
  unfold in_op. rewrite U, (unwrap_object cell src y a Y). cbn [props val].
  change (has P_OBJECT P_OBJECT) with true. cbv iota. rewrite H. clear H.
  assert (M : forall e, In e (items a) -> match_elem h x e = Some false).
  { intros e Ie. specialize (He e Ie). unfold match_elem.
    assert (K : props x = P_UNDEFINED \/ props x = P_NULL \/ props x = P_OBJECT) by tauto.
    assert (B : forall m, Z.land (props x) (props e) = m ->
      (m = P_UNDEFINED \/ m = P_NULL \/ m = P_OBJECT)).
    { intros m <-. destruct K as [-> |[-> | ->]].
      - left. apply Z.land_0_l.
      - change P_NULL with (Z.ones 1). rewrite Z.land_comm, Z.land_ones by lia.
        pose proof (Z.mod_pos_bound (props e) (2 ^ 1) eq_refl). change (2 ^ 1) with 2 in *.
        change (Z.ones 1) with 1. change P_UNDEFINED with 0. lia.
      - destruct (Z.testbit (props e) 9) eqn:T.
        + right; right. apply Z.bits_inj'. intros i Hi. rewrite Z.land_spec. change P_OBJECT with (2 ^ 9).
          rewrite Z.pow2_bits_eqb by lia. destruct (Z.eqb_spec 9 i); [subst; now rewrite T|reflexivity].
        + left. apply Z.bits_inj'. intros i Hi. rewrite Z.land_spec. change P_OBJECT with (2 ^ 9).
          rewrite Z.pow2_bits_eqb by lia. change P_UNDEFINED with 0. rewrite Z.bits_0.
          destruct (Z.eqb_spec 9 i); [subst; now rewrite T|reflexivity]. }
    destruct (B _ eq_refl) as [E|[E|E]]; rewrite E; try reflexivity.
    change ((P_OBJECT =? P_BOOL) || (P_OBJECT =? P_INT) || (P_OBJECT =? P_FLOAT)) with false.
    change (P_OBJECT =? P_OBJECT) with true. cbv iota.
    destruct Hx as [Ex|[Ex|(_ & Hx & Hn)]].
    1: rewrite Ex, Z.land_0_l in E; discriminate.
    1: { rewrite Ex in E. change P_NULL with (Z.ones 1) in E. rewrite Z.land_comm, Z.land_ones in E by lia.
         pose proof (Z.mod_pos_bound (props e) (2 ^ 1) eq_refl). change (2 ^ 1) with 2 in *.
         change P_OBJECT with 512 in E. lia. }
    destruct (h (val x)) as [ox|] eqn:Eo; [|now destruct Hx].
    assert (Ho : has (props e) P_OBJECT = true).
    { assert (Ex : props x = P_OBJECT) by (destruct K as [K|[K|K]]; [rewrite K, Z.land_0_l in E; discriminate| |exact K];
        rewrite K in E; change P_NULL with (Z.ones 1) in E; rewrite Z.land_comm, Z.land_ones in E by lia;
        pose proof (Z.mod_pos_bound (props e) (2 ^ 1) eq_refl); change (2 ^ 1) with 2 in *; change P_OBJECT with 512 in E; lia).
      unfold has. rewrite Z.land_comm, <- Ex, E. reflexivity. }
    destruct (h (val e)) as [oe|]; [|now destruct (He Ho)].
    destruct ox; try reflexivity. now destruct (Hn bytes). }
  revert M. generalize (items a). intros l M. induction l as [|e l IH]; [reflexivity|].
  cbn [scan]. rewrite M by (left; reflexivity). apply IH. intros e' I. apply M. now right.
Qed.
Print Assumptions C171_in_objects_refuted.

(** A concrete heap: a text "abc" at 1, an array at 2, an object at 3, texts at 4, 5. *)
Definition heap0 (a : Z) : option obj :=
  if a =? 1 then Some (OStr [97; 98; 99]) else if a =? 2 then Some OArr else if a =? 3 then Some ODict
  else if a =? 4 then Some (OStr [98; 99]) else if a =? 5 then Some (OStr [110]) else None.
Definition items0 (_ : Z) : list stk := [Stk 7 P_INT; Stk 4 P_OBJECT; Stk 1 P_BOOL].
Definition keys0 (_ : Z) : list (list Z) := [[120]; [98; 99]].
Definition text0 (_ : Z) : list Z := [].
Definition cell0 (a : Z) : option stk := if a =? 9 then Some (Stk 7 P_INT) else None.
Definition src0 (a : Z) : option Z := if a =? 8 then Some 3 else None.
Definition in0 := in_op heap0 items0 keys0 text0 cell0 src0.
Lemma heap0_1 : cbytes [97; 98; 99]. Proof. repeat constructor. Qed.
Lemma heap0_4 : cbytes [98; 99]. Proof. repeat constructor. Qed.
Example C171_case :
  (operand heap0 cell0 (Stk 4 P_OBJECT_IN_CONTAINER) (TextV [98; 99]) /\ object_at src0 (Stk 1 P_OBJECT) 1 /\
   in0 (Stk 4 P_OBJECT_IN_CONTAINER) (Stk 1 P_OBJECT) = Push true) /\
  (Forall2 (element heap0) (items0 2) [IntV 7; TextV [98; 99]; BoolV true] /\
   operand heap0 cell0 (Stk 9 P_PTR_STK) (IntV 7) /\ in0 (Stk 9 P_PTR_STK) (Stk 2 P_OBJECT) = Push true /\
   in0 (Stk 1 P_INT) (Stk 2 P_OBJECT) = Push false) /\
  (direct heap0 (Stk 5 P_OBJECT) (TextV [110]) /\ object_at src0 (Stk 8 P_CONTAINER_SLOT) 3 /\
   in0 (Stk 5 P_OBJECT) (Stk 8 P_CONTAINER_SLOT) = Push false /\
   in0 (Stk 4 P_OBJECT) (Stk 8 P_CONTAINER_SLOT) = Push true) /\
  (in0 (Stk 0 P_INT) (Stk 1 P_OBJECT) = Push true /\ in0 (Stk 353 P_INT) (Stk 1 P_OBJECT) = Push true) /\
  in0 (Stk 9 P_PTR_STK) (Stk 1 P_OBJECT) = Stop /\ in0 (Stk 3 P_OBJECT) (Stk 2 P_OBJECT) = Push false.
Proof.
  assert (D5 : direct heap0 (Stk 5 P_OBJECT) (TextV [110])).
  { split; [now left|]. split; [reflexivity|]. repeat constructor. }
  split; [|split; [|split; [|split; [|split]]]]; try (vm_compute; reflexivity).
  - split; [|split; [left; split; [reflexivity|now left]|vm_compute; reflexivity]].
    right; left. exists [98; 99]. split; [reflexivity|]. split; [reflexivity|]. split; [reflexivity|exact heap0_4].
  - split; [|split; [|split; vm_compute; reflexivity]].
    + apply Forall2_cons; [split; reflexivity|]. apply Forall2_cons; [split; [reflexivity|split; [reflexivity|exact heap0_4]]|].
      apply Forall2_cons; [split; reflexivity|constructor].
    + right; right. exists (Stk 7 P_INT). split; [reflexivity|]. split; [reflexivity|]. split; [now left|reflexivity].
  - split; [exact D5|]. split; [right; split; reflexivity|]. split; vm_compute; reflexivity.
  - split; vm_compute; reflexivity.
Qed.

(** ** C172: [in] replaces its operands by one value *)

(** The stack as the instructions before [in] leave it. *)
Definition before (m : where_) (x y : stk) (st : list stk) : list stk :=
  match m with Both => y :: x :: st | Left_ _ => x :: st | Neither _ _ => st end.
Definition given (m : where_) (x y : stk) : Prop :=
  match m with Both => True | Left_ y' => y' = y | Neither x' y' => x' = x /\ y' = y end.

(** On a text, an array, and an object whose name is given by an object that is not read out
    of a field, the operands are replaced by one truth value (or the operator stops with an
    error), and a condition is decided by it and leaves the stack as it was. *)
Theorem C172_in_one_value_partial :
  forall h items keys text cell src m x y st r,
  given m x y ->
  in_op h items keys text cell src x y = Push r ->
  run_in h items keys text cell src m (before m x y st) = Go (Stk (Z.b2z r) P_BOOL :: st) /\
  cond_in h items keys text cell src m (before m x y st) = Take r st.
Proof.
  intros h items keys text cell src m x y st r G E.
  assert (R : run_in h items keys text cell src m (before m x y st) = Go (Stk (Z.b2z r) P_BOOL :: st)).
  { destruct m; cbn in G |- *; [|subst y0|destruct G as (-> & ->)]; rewrite E; reflexivity. }
  split; [exact R|]. unfold cond_in. rewrite R. destruct r; reflexivity.
Qed.
Print Assumptions C172_in_one_value_partial.

(** The right operand is no object: the operator stops with an error, whatever the left. *)
Theorem C172_in_no_object_stops :
  forall h items keys text cell src m x y st v,
  given m x y -> operand h cell x v -> props y <> P_PTR_STK ->
  (exists u, direct h y u /\ forall s, u <> TextV s) ->
  run_in h items keys text cell src m (before m x y st) = Halt.
Proof.
  intros h items keys text cell src m x y st v G X Np (u & D & N).
  assert (E : in_op h items keys text cell src x y = Stop).
  { destruct (unwrap_operand h cell src x v X) as (w & U & _). unfold in_op.
    rewrite U, (unwrap_direct h cell src y u D). destruct u; try reflexivity. now destruct (N s). }
  destruct m; cbn in G |- *; [|subst y0|destruct G as (-> & ->)]; rewrite E; reflexivity.
Qed.
Print Assumptions C172_in_no_object_stops.

(** With an object on the right: a number, a truth, undefined or null, a text read out of a
    field or an element, a name in a variable that is used by reference, and an object inside
    another one leave no value and no error, whether the name is in the object or not.  The
    condition is then decided by what lies below the operands: the last local variable. *)
Theorem C172_in_no_value_refuted :
  forall h items keys text cell src m x y a st x1,
  given m x y -> object_at src y a -> h a = Some ODict ->
  unwrap cell src x = Some x1 ->
  (In (props x) [P_UNDEFINED; P_NULL; P_INT; P_FLOAT; P_BOOL; P_OBJECT_IN_CONTAINER; P_PTR_STK; P_CONTAINER_SLOT]) ->
  run_in h items keys text cell src m (before m x y st) = Go st /\
  (forall r st', st = Stk (Z.b2z r) P_BOOL :: st' ->
     cond_in h items keys text cell src m (before m x y st) = Take r st') /\
  (forall z st', st = Stk z P_INT :: st' ->
     cond_in h items keys text cell src m (before m x y st) = NoBool) /\
  (st = [] -> cond_in h items keys text cell src m (before m x y st) = Below).
Proof.
  intros h items keys text cell src m x y a st x1 G Y H U K.
  assert (E : in_op h items keys text cell src x y = Nothing).
  { unfold in_op. rewrite U, (unwrap_object cell src y a Y). cbn [props val].
    change (has P_OBJECT P_OBJECT) with true. cbv iota. rewrite H.
    cbn [In] in K. repeat (destruct K as [K|K]; [rewrite <- K; reflexivity|]). destruct K. }
  assert (R : run_in h items keys text cell src m (before m x y st) = Go st).
  { destruct m; cbn in G |- *; [|subst y0|destruct G as (-> & ->)]; rewrite E; reflexivity. }
  split; [exact R|]. split; [|split].
  - intros r st' ->. unfold cond_in. rewrite R. destruct r; reflexivity.
  - intros z st' ->. unfold cond_in. rewrite R. reflexivity.
  - intros ->. unfold cond_in. rewrite R. reflexivity.
Qed.
Print Assumptions C172_in_no_value_refuted.

(** An object of no text is asked under its printed form, such as the text of an array. *)
Definition cond0 := cond_in heap0 items0 keys0 text0 cell0 src0.
Example C172_case :
  (* the name is a field, and the condition of "bc" in o is true, above any variable *)
  cond0 (Neither (Stk 4 P_OBJECT) (Stk 3 P_OBJECT)) [Stk 0 P_BOOL] = Take true [Stk 0 P_BOOL] /\
  (* the same name, read out of a field, decides by the variable below: false, true, an error *)
  cond0 Both [Stk 3 P_OBJECT; Stk 4 P_OBJECT_IN_CONTAINER; Stk 0 P_BOOL] = Take false [] /\
  cond0 (Left_ (Stk 3 P_OBJECT)) [Stk 4 P_OBJECT_IN_CONTAINER; Stk 1 P_BOOL] = Take true [] /\
  cond0 (Neither (Stk 7 P_INT) (Stk 3 P_OBJECT)) [Stk 5 P_INT] = NoBool /\
  cond0 (Neither (Stk 7 P_INT) (Stk 3 P_INT)) [Stk 5 P_INT] = Otherwise /\
  run_in heap0 items0 keys0 text0 cell0 src0 (Neither (Stk 7 P_INT) (Stk 3 P_INT)) [] = Halt.
Proof. repeat split; vm_compute; reflexivity. Qed.
