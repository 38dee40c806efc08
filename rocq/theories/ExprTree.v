(** * Operator trees: the specification's tree is the unique one, and the
      compiler's splitting follows it. *)
From Coq Require Import ZArith List Bool Lia.
From Verif Require Import Base FloatModel ExprModel VmModel ExprSpec.
Import ListNotations.
Local Open Scope Z_scope.
Local Arguments Nat.ltb : simpl never.

Lemma group_binds : forall o, group o = Z.of_nat (binds o).
Proof. destruct o; reflexivity. Qed.
Lemma binds_max : forall o, (binds o <= 8)%nat.
Proof. destruct o; cbn; lia. Qed.

Section Trees.
Context {A : Type}.

Lemma all_ops_impl : forall (P Q : bop -> Prop) (t : tree A),
  (forall o, P o -> Q o) -> all_ops P t -> all_ops Q t.
Proof. induction t; cbn; intuition. Qed.

Lemma all_ops_toks : forall (P : bop -> Prop) (t : tree A),
  all_ops P t <-> Forall (fun p => P (fst p)) (rest_toks t).
Proof.
  induction t as [a | o l IHl r IHr]; cbn.
  - split; auto.
  - rewrite Forall_app, Forall_cons_iff; cbn. intuition.
Qed.

Lemma add_op_first : forall (t : tree A) o a, first_leaf (add_op t o a) = first_leaf t.
Proof. induction t; cbn; intros; [reflexivity|]. match goal with |- context [(?x <? ?y)%nat] => destruct (x <? y)%nat end; reflexivity. Qed.

Lemma add_op_rest : forall (t : tree A) o a, rest_toks (add_op t o a) = rest_toks t ++ [(o, a)].
Proof.
  induction t as [b | o' l IHl r IHr]; cbn; intros o a; [reflexivity|].
  match goal with |- context [(?x <? ?y)%nat] => destruct (x <? y)%nat end; cbn.
  - rewrite IHr, add_op_first, <- app_assoc. reflexivity.
  - reflexivity.
Qed.

Lemma add_op_all : forall (P : bop -> Prop) (t : tree A) o a,
  P o -> all_ops P t -> all_ops P (add_op t o a).
Proof.
  induction t as [b | o' l IHl r IHr]; cbn; intros o a Po H; [auto|].
  match goal with |- context [(?x <? ?y)%nat] => destruct (x <? y)%nat end; cbn; intuition.
Qed.

Lemma add_op_priority : forall (t : tree A) o a, by_priority t -> by_priority (add_op t o a).
Proof.
  induction t as [b | o' l IHl r IHr]; cbn; intros o a H; [auto|].
  destruct (Nat.ltb_spec (binds o') (binds o)); cbn.
  - destruct H as (H1 & H2 & H3 & H4). repeat split; auto. apply add_op_all; auto.
  - destruct H as (H1 & H2 & H3 & H4). split.
    + split; [lia|]. split.
      * eapply all_ops_impl; [|exact H1]. cbn; intros; lia.
      * eapply all_ops_impl; [|exact H2]. cbn; intros; lia.
    + tauto.
Qed.

Lemma tree_of_fold : forall (tl : list (bop * A)) t,
  by_priority t ->
  let u := fold_left (fun t p => add_op t (fst p) (snd p)) tl t in
  by_priority u /\ first_leaf u = first_leaf t /\ rest_toks u = rest_toks t ++ tl.
Proof.
  induction tl as [|(o, a) tl IH]; cbn; intros t Ht.
  - rewrite app_nil_r; auto.
  - destruct (IH (add_op t o a)) as (H1 & H2 & H3); [apply add_op_priority; auto|].
    split; [exact H1|]. rewrite H2, H3, add_op_first, add_op_rest, <- app_assoc. auto.
Qed.

Theorem tree_of_spec : forall hd (tl : list (bop * A)),
  by_priority (tree_of hd tl) /\ first_leaf (tree_of hd tl) = hd /\ rest_toks (tree_of hd tl) = tl.
Proof. intros. unfold tree_of. apply (tree_of_fold tl (Leaf hd)). cbn; auto. Qed.

(** Uniqueness. *)

Lemma app_split : forall (l1 l2 r1 r2 : list (bop * A)) p q,
  l1 ++ p :: r1 = l2 ++ q :: r2 ->
  (l1 = l2 /\ p = q /\ r1 = r2) \/
  (exists m, l2 = l1 ++ p :: m /\ r1 = m ++ q :: r2) \/
  (exists m, l1 = l2 ++ q :: m /\ r2 = m ++ p :: r1).
Proof.
  induction l1 as [|x l1 IH]; destruct l2 as [|y l2]; cbn; intros r1 r2 p q E; inversion E; subst.
  - left; auto.
  - right; left. exists l2. auto.
  - right; right. exists l1. auto.
  - destruct (IH _ _ _ _ _ H1) as [(E1 & E2 & E3) | [(m & E1 & E2) | (m & E1 & E2)]]; subst.
    + left; auto.
    + right; left. exists m; auto.
    + right; right. exists m; auto.
Qed.

Theorem tree_unique : forall (t u : tree A),
  by_priority t -> by_priority u ->
  first_leaf t = first_leaf u -> rest_toks t = rest_toks u -> t = u.
Proof.
  induction t as [a | o l IHl r IHr]; intros [b | o' l' r'] Ht Hu E1 E2; cbn in *.
  - congruence.
  - destruct (rest_toks l'); discriminate.
  - destruct (rest_toks l); discriminate.
  - destruct Ht as (T1 & T2 & T3 & T4), Hu as (U1 & U2 & U3 & U4).
    apply all_ops_toks in T1, T2, U1, U2.
    destruct (app_split _ _ _ _ _ _ E2) as [(F1 & F2 & F3) | [(m & F1 & F2) | (m & F1 & F2)]].
    + inversion F2; subst. f_equal; auto.
    + exfalso. rewrite F1 in U1. rewrite F2 in T2.
      apply Forall_app in U1. destruct U1 as (_ & U1). inversion U1; subst; cbn in *.
      apply Forall_app in T2. destruct T2 as (_ & T2). inversion T2; subst; cbn in *. lia.
    + exfalso. rewrite F1 in T1. rewrite F2 in U2.
      apply Forall_app in T1. destruct T1 as (_ & T1). inversion T1; subst; cbn in *.
      apply Forall_app in U2. destruct U2 as (_ & U2). inversion U2; subst; cbn in *. lia.
Qed.

End Trees.

Lemma tmap_first : forall A B (f : A -> B) t, first_leaf (tmap f t) = f (first_leaf t).
Proof. induction t; cbn; auto. Qed.
Lemma tmap_rest : forall A B (f : A -> B) t,
  rest_toks (tmap f t) = map (fun p => (fst p, f (snd p))) (rest_toks t).
Proof.
  induction t as [a | o l IHl r IHr]; cbn; auto.
  rewrite IHl, IHr, tmap_first, map_app. reflexivity.
Qed.
Lemma tmap_all : forall A B (f : A -> B) P t, all_ops P (tmap f t) <-> all_ops P t.
Proof. induction t; cbn; intuition. Qed.
Lemma tmap_priority : forall A B (f : A -> B) t, by_priority (tmap f t) <-> by_priority t.
Proof. induction t; cbn; [tauto|]. rewrite !tmap_all. intuition. Qed.

Lemma add_op_tmap : forall A B (f : A -> B) t o a, add_op (tmap f t) o (f a) = tmap f (add_op t o a).
Proof.
  induction t as [b | o' l IHl r IHr]; cbn; intros; [reflexivity|].
  match goal with |- context [(?x <? ?y)%nat] => destruct (x <? y)%nat end; cbn; [rewrite IHr|]; reflexivity.
Qed.
Lemma tree_of_tmap : forall A B (f : A -> B) hd tl,
  tree_of (f hd) (map (fun p => (fst p, f (snd p))) tl) = tmap f (tree_of hd tl).
Proof.
  intros. unfold tree_of. change (Leaf (f hd)) with (tmap f (Leaf hd)).
  generalize (Leaf hd). induction tl as [|(o, a) tl IH]; intros t; cbn; [reflexivity|].
  rewrite add_op_tmap. apply IH.
Qed.

(** ** The scan for the split operator. *)
Lemma find_split_after : forall A (r : list (bop * A)) i best found,
  Forall (fun p => best < group (fst p)) r -> find_split i best found r = found.
Proof.
  induction r as [|(o, a) r IH]; cbn; intros i best found H; [reflexivity|].
  inversion H; subst; cbn in *. destruct (Z.leb_spec (group o) best); [lia|]. auto.
Qed.

Lemma find_split_at : forall A (l r : list (bop * A)) o a i best found,
  group o <= best ->
  Forall (fun p => group o <= group (fst p)) l ->
  Forall (fun p => group o < group (fst p)) r ->
  find_split i best found (l ++ (o, a) :: r) = Some (i + length l)%nat.
Proof.
  induction l as [|(o', a') l IH]; cbn; intros r o a i best found Hb Hl Hr.
  - destruct (Z.leb_spec (group o) best); [|lia]. rewrite find_split_after by auto.
    f_equal; lia.
  - inversion Hl; subst; cbn in *. destruct (Z.leb_spec (group o') best).
    + rewrite IH by (auto; lia). f_equal; lia.
    + rewrite IH by (auto; lia). f_equal; lia.
Qed.

Lemma find_split_node : forall A (o : bop) (l r : tree A),
  by_priority (Node o l r) ->
  find_split 0 8 None (rest_toks (Node o l r)) = Some (length (rest_toks l)).
Proof.
  intros A o l r (H1 & H2 & _). cbn [rest_toks].
  rewrite find_split_at.
  - reflexivity.
  - rewrite group_binds. pose proof (binds_max o); lia.
  - apply all_ops_toks in H1. eapply Forall_impl; [|exact H1]. cbn; intros.
    rewrite !group_binds; lia.
  - apply all_ops_toks in H2. eapply Forall_impl; [|exact H2]. cbn; intros.
    rewrite !group_binds; lia.
Qed.

(** The compiler on trees. *)
Section CTree.
Variable foldk : bop -> const -> const -> fold.

Fixpoint ctree (acc : code) (t : tree code) : option code :=
  match t with
  | Leaf c => Some (acc ++ c)
  | Node o l r =>
      match ctree acc l with
      | None => None
      | Some acc1 =>
          let plain :=
            match ctree acc1 r with
            | None => None
            | Some acc2 =>
                match optimize foldk o acc2 with
                | OptErr => None
                | OptNone => Some (acc2 ++ [Bin o (-1) (Raw (-1)) 0])
                | OptTo acc3 => Some acc3
                end
            end in
          if two_last_const acc1 then plain
          else match o with
               | O_LAND => ctree (acc1 ++ [Jnt NextOr (-1)]) r
               | O_LOR => ctree (acc1 ++ [Jt LogicOk (-1)]) r
               | _ => plain
               end
      end
  end.

Lemma ctoks_ctree : forall (t : tree code) fuel acc,
  by_priority t -> (length (rest_toks t) < fuel)%nat ->
  ctoks foldk fuel acc (first_leaf t) (rest_toks t) = ctree acc t.
Proof.
  induction t as [c | o l IHl r IHr]; intros fuel acc Hp Hf.
  - destruct fuel; [lia|]. reflexivity.
  - destruct fuel as [|fuel]; [lia|].
    assert (Hs := find_split_node _ _ _ _ Hp).
    destruct Hp as (_ & _ & Pl & Pr).
    cbn [ctoks]. destruct (rest_toks (Node o l r)) as [|x xs] eqn:E.
    + cbn in E. destruct (rest_toks l); discriminate.
    + rewrite Hs, <- E. cbn [rest_toks first_leaf] in *.
      rewrite nth_error_app2, Nat.sub_diag by lia. cbn [nth_error].
      assert (F1 : firstn (length (rest_toks l)) (rest_toks l ++ (o, first_leaf r) :: rest_toks r) = rest_toks l).
      { rewrite firstn_app, Nat.sub_diag, firstn_all. cbn. apply app_nil_r. }
      assert (F2 : skipn (S (length (rest_toks l))) (rest_toks l ++ (o, first_leaf r) :: rest_toks r) = rest_toks r).
      { rewrite skipn_app, skipn_all2 by lia.
        replace (S (length (rest_toks l)) - length (rest_toks l))%nat with 1%nat by lia. reflexivity. }
      assert (Hlen : (length (rest_toks l) + S (length (rest_toks r)) = S (length xs))%nat).
      { rewrite <- (f_equal (@length _) E : length (rest_toks l ++ (o, first_leaf r) :: rest_toks r) = S (length xs)).
        rewrite app_length; reflexivity. }
      rewrite F1, F2, IHl by (auto; cbn in Hf; lia). cbn [ctree].
      destruct (ctree acc l) as [acc1|]; [|reflexivity].
      assert (HR : forall a, ctoks foldk fuel a (first_leaf r) (rest_toks r) = ctree a r)
        by (intros; apply IHr; [auto | cbn in Hf; lia]).
      rewrite !HR. destruct (two_last_const acc1); [reflexivity|].
      destruct o; try reflexivity; apply HR.
Qed.

Corollary ctoks_tree_of : forall hd tl acc,
  ctoks foldk (S (length tl)) acc hd tl = ctree acc (tree_of hd tl).
Proof.
  intros. destruct (tree_of_spec hd tl) as (P & E1 & E2).
  rewrite <- ctoks_ctree with (fuel := S (length tl)) by (auto; rewrite E2; lia).
  rewrite E1, E2. reflexivity.
Qed.

End CTree.
