(** Theorems about List (C04, C66). *)
From Coq Require Import List Arith Bool Lia.
From Verif Require Import Base ListModel ListSpec ListProofs.
Import ListNotations.

(** C04. Any history of insertions and removals, starting from the empty list with all
    nodes detached: the operations accepted/refused are exactly those of the sequence
    semantics (never undefined behaviour), and the forward and backward walks are the
    sequence of attached nodes and its reverse. *)
Theorem C04_list_refines_sequence :
  forall os, exists st, lrun os cl_empty = Some (st, snd (seq_lrun os [])) /\
    let l := fst (seq_lrun os []) in
    walk_forward (S (length l)) st = Some l /\
    walk_backward (S (length l)) st = Some (rev l).
Proof.
  intros os. destruct inv_empty as (I0 & D0).
  destruct (lrun_ok os cl_empty [] I0 D0) as (st & E & I & D).
  exists st. split; auto. split; [now apply walk_forward_ok|now apply walk_backward_ok].
Qed.
Print Assumptions C04_list_refines_sequence.

Example C04_case :
  seq_lrun [LInsert 1; LInsert 2; LInsert 3; LInsert 2; LRemove 2; LRemove 2; LInsert 4; LRemove 1] []
  = ([3; 4], [true; true; true; false; true; false; true; true]).
Proof. reflexivity. Qed.

(** A refused operation leaves the list as it was. *)
Theorem C04_refused_is_noop :
  forall st n, (forall st', cl_insert st n = Exc st' -> st' = st) /\
               (forall st', cl_remove st n = Exc st' -> st' = st).
Proof.
  intros st n. unfold cl_insert, cl_remove. split; intros st' H.
  - unfold ring_insert in H. destruct (next (heap st) n), (prev (heap st) n); try (inversion H; auto; fail).
    destruct (first st), (last st); inversion H.
  - unfold ring_remove in H. destruct (next (heap st) n), (prev (heap st) n); try (inversion H; auto; fail).
    destruct (eqo _ _ && eqo _ _); [discriminate|]. simpl in H.
    destruct (fset _ _ _ _); try discriminate. destruct (prev (heap st) n); discriminate.
Qed.
Print Assumptions C04_refused_is_noop.

(** C66. Detaching all nodes with the engine's callback (which removes the node it is
    given) empties the list, in as many steps as there are nodes. *)
Theorem C66_detach_all_empties :
  forall os, exists st st', lrun os cl_empty = Some (st, snd (seq_lrun os [])) /\
    detach_all (S (length (fst (seq_lrun os [])))) (Some cl_remove) st = Some (Ret st' tt) /\
    walk_forward 1 st' = Some [].
Proof.
  intros os. destruct inv_empty as (I0 & D0).
  destruct (lrun_ok os cl_empty [] I0 D0) as (st & E & I & D).
  exists st. unfold detach_all. rewrite (inv_first _ _ I).
  destruct (fst (seq_lrun os [])) as [|x l] eqn:El.
  - exists st. repeat split; auto. apply (walk_forward_ok st [] I).
  - destruct (detach_loop_ok (x :: l) st (S (length (x :: l))) I D) as (st' & E' & I' & _);
      [congruence|lia|].
    exists st'. repeat split; auto. apply (walk_forward_ok st' [] I').
Qed.
Print Assumptions C66_detach_all_empties.

(** C66, the destructor's variant (List.tcc:86-88, no callback) never terminates on a
    non-empty list. *)
Theorem C66_destructor_nonempty_diverges_refuted :
  forall os st bs, lrun os cl_empty = Some (st, bs) -> fst (seq_lrun os []) <> [] ->
    forall fuel, detach_all fuel None st = None.
Proof.
  intros os st bs E Hne fuel. destruct inv_empty as (I0 & D0).
  destruct (lrun_ok os cl_empty [] I0 D0) as (st' & E' & I & D).
  rewrite E in E'. inversion E'; subst.
  unfold detach_all. rewrite (inv_first _ _ I).
  destruct (fst (seq_lrun os [])) as [|x l] eqn:El; [congruence|]. cbn [hd_error].
  apply (detach_null_loops st' (x :: l)); auto. simpl; auto.
Qed.
Print Assumptions C66_destructor_nonempty_diverges_refuted.
