(** Claims C179 (texts of any length) and C180 (the directive import). *)
From Coq Require Import List ZArith Bool Lia String.
From Verif Require Import Base StringModel LexModel LexSpec LexTok ParseModel ParseSpec ParseLex ParseProofs ParseMain ParseSound ParseTotal ParseProps LitModel LitSpec LitProofs LitProps CopyModel.
Import ListNotations.
Local Open Scope Z_scope.

Definition size (t : list Z) : Z := Z.of_nat (List.length t).

Lemma copy_short t : t <> [] -> size t < 4096 -> copy t = Ok t.
Proof. intros N L. unfold size in L. unfold copy, max_buffer. destruct (Z.leb_spec (4096 + 1) (Z.of_nat (List.length t))); [lia|]. destruct t; [congruence|]. destruct (Z.eqb_spec (Z.of_nat (List.length (z :: t))) 4096); [lia | reflexivity]. Qed.
Lemma copy_full t : size t = 4096 -> copy t = UB.
Proof. unfold size, copy, max_buffer. intros L. rewrite L. destruct t; [discriminate | reflexivity]. Qed.
Lemma copy_long t : 4096 < size t -> copy t = Thr.
Proof. unfold size, copy, max_buffer. intros L. destruct (Z.leb_spec (4096 + 1) (Z.of_nat (List.length t))); [reflexivity | lia]. Qed.

(** ** C179: texts of any length *)

(** A string literal has its characters as value.  Missing: 4096 characters and more, and what
    C86 leaves out. *)
Theorem C179_string_partial : forall t r, string_body t -> size t < 4096 -> string_value (34 :: t ++ 34 :: r) = Ok (t, r).
Proof.
  intros t r B L. unfold string_value. rewrite (proj2 (string_literal_spec _ t r) (conj eq_refl B)). cbn [rbind fst snd]. destruct t as [|c t]; [reflexivity|]. rewrite copy_short by (auto; discriminate). reflexivity.
Qed.
(** What has been read stands there between quotes. *)
Theorem C179_string_read : forall s t r, string_value s = Ok (t, r) -> s = 34 :: t ++ 34 :: r /\ string_body t /\ size t < 4096.
Proof.
  intros s t r H. unfold string_value in H. destruct (string_literal s) as [[b r']| | |] eqn:E; try discriminate. apply string_literal_spec in E. destruct E as (E & B). cbn [rbind fst snd] in H.
  destruct b as [|c b]; [inversion H; subst; split; [reflexivity|]; split; [exact B | unfold size; cbn; lia]|].
  destruct (Z.lt_trichotomy (size (c :: b)) 4096) as [L|[L|L]].
  - rewrite copy_short in H by (auto; discriminate). inversion H; subst. auto.
  - rewrite copy_full in H by exact L. discriminate.
  - rewrite copy_long in H by lia. discriminate.
Qed.
(** REFUTED: that strings can be longer.  More than 4096 characters are refused, and with exactly
    4096 memory behind the buffer is read. *)
Theorem C179_string_refuted : forall t r, string_body t ->
  (size t = 4096 -> string_value (34 :: t ++ 34 :: r) = UB) /\ (4096 < size t -> string_value (34 :: t ++ 34 :: r) = Thr).
Proof.
  intros t r B. unfold string_value. rewrite (proj2 (string_literal_spec _ t r) (conj eq_refl B)). cbn [rbind fst snd].
  split; intros L; (destruct t as [|c t]; [unfold size in L; cbn in L; lia|]); [rewrite copy_full by exact L | rewrite copy_long by exact L]; reflexivity.
Qed.

Section Cond.
Variable other : okind -> ptr -> res (Z * ptr).
Variable kind : literal -> option bool.
Variable known is_type : list Z -> bool.
Variable makes : pexpr -> bool.
Notation written := (written other kind known is_type makes).
Notation while_condition := (while_condition other kind known is_type makes).

Lemma while_reads : forall b e t b2 r, trivia b -> written e t -> plain_expr e -> trivia b2 ->
  while_condition (40 :: b ++ t ++ b2 ++ 41 :: r) = (do _ <- copy (b ++ t ++ b2); Ok (PSome e, 41 :: r)).
Proof.
  intros b e t b2 r B W P B2. unfold CopyModel.while_condition. rewrite (C170_reading_partial other kind known is_type makes (fun _ => None) (fun _ => false) (fun _ _ => false) b e t b2 r B W P B2). cbn [rbind snd]. rewrite LitProofs.adv1.
  replace (firstn _ (b ++ t ++ b2 ++ 41 :: r)) with (b ++ t ++ b2); [reflexivity|].
  replace (b ++ t ++ b2 ++ 41 :: r) with ((b ++ t ++ b2) ++ 41 :: r) by (rewrite <- !app_assoc; reflexivity). rewrite app_length.
  rewrite Nat.add_sub. rewrite <- (Nat.add_0_r (List.length (b ++ t ++ b2))). rewrite firstn_app_2. cbn [firstn]. rewrite app_nil_r. reflexivity.
Qed.
(** The condition of a while is the expression in the parentheses.  Missing: 4096 characters and
    more, blanks and comments included, and what C170 leaves out. *)
Theorem C179_while_partial : forall b e t b2 r, trivia b -> written e t -> plain_expr e -> trivia b2 -> size (b ++ t ++ b2) < 4096 ->
  while_condition (40 :: b ++ t ++ b2 ++ 41 :: r) = Ok (PSome e, 41 :: r).
Proof.
  intros b e t b2 r B W P B2 L. rewrite (while_reads b e t b2 r B W P B2). rewrite copy_short; [reflexivity | | exact L].
  intros E. apply app_eq_nil in E. destruct E as (_ & E). apply app_eq_nil in E. destruct E as (-> & _). destruct (written_opens other kind known is_type makes _ _ W) as (? & ? & ? & _). discriminate.
Qed.
(** REFUTED: that blanks and comments have no meaning there, and that conditions can be long. *)
Theorem C179_while_refuted : forall b e t b2 r, trivia b -> written e t -> plain_expr e -> trivia b2 ->
  (size (b ++ t ++ b2) = 4096 -> while_condition (40 :: b ++ t ++ b2 ++ 41 :: r) = UB) /\ (4096 < size (b ++ t ++ b2) -> while_condition (40 :: b ++ t ++ b2 ++ 41 :: r) = Thr).
Proof. intros b e t b2 r B W P B2. rewrite (while_reads b e t b2 r B W P B2). split; intros L; [rewrite copy_full by exact L | rewrite copy_long by exact L]; reflexivity. Qed.
End Cond.

(** ** C180: the directive import *)

(** import and a string name the file; blanks and comments may stand between, or nothing. *)
Theorem C180_import_partial : forall b t r, trivia b -> string_body t -> t <> [] -> size t < 4096 ->
  import_name (bytes "import" ++ b ++ 34 :: t ++ 34 :: r) = Ok (Some (t, r)).
Proof.
  intros b t r B S N L. unfold import_name. change (is_import (bytes "import" ++ b ++ 34 :: t ++ 34 :: r)) with true. cbv iota.
  change (adv 6 (bytes "import" ++ b ++ 34 :: t ++ 34 :: r)) with (b ++ 34 :: t ++ 34 :: r). rewrite blanks_char by (auto; cbn; lia). cbn [rbind].
  rewrite (proj2 (string_literal_spec _ t r) (conj eq_refl S)). cbn [rbind fst snd]. rewrite copy_short by assumption. reflexivity.
Qed.
(** An import without a name is refused. *)
Theorem C180_empty_refused : forall b r, trivia b -> import_name (bytes "import" ++ b ++ 34 :: 34 :: r) = Thr.
Proof.
  intros b r B. unfold import_name. change (is_import (bytes "import" ++ b ++ 34 :: 34 :: r)) with true. cbv iota.
  change (adv 6 (bytes "import" ++ b ++ 34 :: 34 :: r)) with (b ++ 34 :: 34 :: r). rewrite blanks_char by (auto; cbn; lia). reflexivity.
Qed.
(** REFUTED: that only the word import is the directive.  A statement that starts with a name that
    starts with import, like [important=1] or [import_all()], is refused, whatever follows; so is
    [import=1]. *)
Theorem C180_word_refuted : forall c u, is_alnum_ c = true \/ In c (bytes "=.([;+-") -> import_name (bytes "import" ++ c :: u) = Thr.
Proof.
  intros c u A. assert (R : 97 <= c <= 122 \/ 65 <= c <= 90 \/ c = 95 \/ 48 <= c <= 57 \/ In c (bytes "=.([;+-")).
  { destruct A as [A|A]; [|tauto]. unfold is_alnum_ in A. apply orb_prop in A. destruct A as [A|A]; [apply alpha_range in A; tauto|]. unfold is_digit, in_range in A. apply andb_prop in A. destruct A as (A & B). apply Z.leb_le in A, B. tauto. }
  cbn in R. unfold import_name. change (is_import (bytes "import" ++ c :: u)) with true. cbv iota. change (adv 6 (bytes "import" ++ c :: u)) with (c :: u).
  rewrite blanks_self by (cbn; intuition lia). cbn [rbind]. unfold string_literal. rewrite LexProofs.peek0. cbn [rbind hd0 hd]. destruct (Z.eqb_spec c 34); [intuition lia | reflexivity].
Qed.
(** What has been read as an import is the word, blanks and comments, and a string with the name. *)
Theorem C180_read : forall s t r, no_lone_cr s -> import_name s = Ok (Some (t, r)) ->
  exists b, s = bytes "import" ++ b ++ 34 :: t ++ 34 :: r /\ trivia b /\ string_body t /\ t <> [] /\ size t < 4096.
Proof.
  intros s t r N H. unfold import_name, is_import in H. destruct (list_eqb (firstn 6 s) (bytes "import")) eqn:E; [|discriminate]. apply eqb_list in E.
  assert (S : s = bytes "import" ++ adv 6 s) by (rewrite <- E; symmetry; apply firstn_skipn).
  destruct (blanks (adv 6 s)) as [u| | |] eqn:B; try discriminate. cbn [rbind] in H. destruct (string_literal u) as [[v w]| | |] eqn:L; try discriminate. cbn [rbind fst snd] in H.
  apply string_literal_spec in L. destruct L as (-> & SB). assert (N1 := N). rewrite S in N1. apply nlc_suffix in N1. destruct (blanks_sound _ _ N1 B) as (b & EB & SK).
  apply skipped_trivia in SK; [|discriminate]. exists b.
  destruct v as [|c v]; [discriminate|]. destruct (Z.lt_trichotomy (size (c :: v)) 4096) as [L|[L|L]].
  - rewrite copy_short in H by (auto; discriminate). inversion H; subst t r. rewrite S at 1. rewrite EB. split; [reflexivity|]. split; [exact SK|]. split; [exact SB|]. split; [discriminate | exact L].
  - rewrite copy_full in H by exact L. discriminate.
  - rewrite copy_long in H by lia. discriminate.
Qed.
(** REFUTED: that names can be longer. *)
Theorem C180_length_refuted : forall b t r, trivia b -> string_body t ->
  (size t = 4096 -> import_name (bytes "import" ++ b ++ 34 :: t ++ 34 :: r) = UB) /\ (4096 < size t -> import_name (bytes "import" ++ b ++ 34 :: t ++ 34 :: r) = Thr).
Proof.
  intros b t r B S. unfold import_name. change (is_import (bytes "import" ++ b ++ 34 :: t ++ 34 :: r)) with true. cbv iota.
  change (adv 6 (bytes "import" ++ b ++ 34 :: t ++ 34 :: r)) with (b ++ 34 :: t ++ 34 :: r). rewrite blanks_char by (auto; cbn; lia). cbn [rbind].
  rewrite (proj2 (string_literal_spec _ t r) (conj eq_refl S)). cbn [rbind fst snd]. split; intros L; [rewrite copy_full by exact L | rewrite copy_long by exact L]; reflexivity.
Qed.
(** Other statements are not taken for one. *)
Theorem C180_other_statements : forall s, (forall u, s <> bytes "import" ++ u) -> import_name s = Ok None.
Proof.
  intros s H. unfold import_name, is_import. destruct (list_eqb (firstn 6 s) (bytes "import")) eqn:E; [|reflexivity]. exfalso. apply eqb_list in E. apply (H (skipn 6 s)). rewrite <- E. symmetry. apply firstn_skipn.
Qed.

(** ** Cases *)
Definition many (n : Z) : list Z := repeat 97 (Z.to_nat n).
Definition wcond (s : list Z) := while_condition no_other ints all_known string_type no_makes s.
Example C179_case : string_value (bytes """a\""b"";") = Ok (bytes "a\""b", bytes ";") /\ size (many 4095) = 4095
  /\ string_value (34 :: many 4095 ++ [34]) = Ok (many 4095, []) /\ string_value (34 :: many 4096 ++ [34]) = UB /\ string_value (34 :: many 4097 ++ [34]) = Thr
  /\ wcond (40 :: repeat 32 (Z.to_nat 4094) ++ bytes "a)") = Ok (PSome ea, bytes ")") /\ wcond (40 :: repeat 32 (Z.to_nat 4095) ++ bytes "a)") = UB
  /\ wcond (40 :: repeat 32 (Z.to_nat 4096) ++ bytes "a)") = Thr.
Proof. repeat split; vm_compute; reflexivity. Qed.
(** The hypotheses about conditions are met by [a]. *)
Example C179_while_met : forall r, wcond (40 :: [] ++ bytes "a" ++ [] ++ 41 :: r) = Ok (PSome ea, 41 :: r).
Proof. intros r. apply C179_while_partial; [constructor | apply written_a | constructor | constructor | reflexivity]. Qed.
Example C180_case : import_name (bytes "import /* x */ ""a/b.zs"";") = Ok (Some (bytes "a/b.zs", bytes ";")) /\ import_name (bytes "import""b""") = Ok (Some (bytes "b", []))
  /\ import_name (bytes "important=1") = Thr /\ import_name (bytes "import2=1") = Thr /\ import_name (bytes "imp=1") = Ok None /\ import_name (bytes "import """"") = Thr.
Proof. repeat split; vm_compute; reflexivity. Qed.

Print Assumptions C179_string_partial.
Print Assumptions C179_string_read.
Print Assumptions C179_string_refuted.
Print Assumptions C179_while_partial.
Print Assumptions C179_while_refuted.
Print Assumptions C180_import_partial.
Print Assumptions C180_empty_refused.
Print Assumptions C180_word_refuted.
Print Assumptions C180_read.
Print Assumptions C180_length_refuted.
Print Assumptions C180_other_statements.
