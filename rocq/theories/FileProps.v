(** Claims C181 (a file is read as it is) and C182 (whether a file exists). *)
From Coq Require Import List ZArith Bool Lia.
From Verif Require Import Base StringModel FileModel.
Import ListNotations.
Local Open Scope Z_scope.

Definition bytes_of (b : list Z) : Z := Z.of_nat (List.length b).

Lemma to_int_small z : 0 <= z < 2 ^ 31 -> to_int z = z.
Proof. intros H. unfold to_int. rewrite Z.mod_small; lia. Qed.
Lemma to_int_high z : 2 ^ 31 <= z < 2 ^ 32 -> to_int z = z - 2 ^ 32.
Proof. intros H. unfold to_int. replace (z + 2 ^ 31) with (z - 2 ^ 31 + 1 * 2 ^ 32) by lia. rewrite Z_mod_plus_full, Z.mod_small; lia. Qed.
Lemma to_int_more z k : to_int (k * 2 ^ 32 + z) = to_int z.
Proof. unfold to_int. replace (k * 2 ^ 32 + z + 2 ^ 31) with (z + 2 ^ 31 + k * 2 ^ 32) by lia. rewrite Z_mod_plus_full. reflexivity. Qed.
Lemma read_regular b l : to_int (bytes_of b) = l -> 0 <= l < 2 ^ 31 - 1 -> l <= bytes_of b -> read_text (Regular b) = Ok (firstn (Z.to_nat l) b ++ [0]).
Proof.
  intros E L S. unfold bytes_of in *. unfold read_text. cbn [file_size]. rewrite E. destruct (Z.eqb_spec l (-1)); [lia|]. destruct (Z.eqb_spec (l + 1) (2 ^ 31)); [lia|]. destruct (Z.ltb_spec l 0); [lia|].
  rewrite firstn_length. destruct (Z.eqb_spec (Z.of_nat (Nat.min (Z.to_nat l) (List.length b))) l); [reflexivity | lia].
Qed.
Lemma c_text_plain b r : ~ In 0 b -> c_text (b ++ 0 :: r) = b.
Proof. induction b as [|c b IH]; intros H; [reflexivity|]. cbn. destruct (Z.eqb_spec c 0); [subst; cbn in H; tauto|]. rewrite IH; [reflexivity | cbn in H; tauto]. Qed.

(** ** C181: a file is read as it is *)

(** The buffer has the bytes of the file and a zero.  Missing: files of 2^31-1 bytes and more. *)
Theorem C181_bytes_partial : forall b, bytes_of b < 2 ^ 31 - 1 -> read_text (Regular b) = Ok (b ++ [0]).
Proof.
  intros b L. assert (0 <= bytes_of b) by (unfold bytes_of; lia). rewrite (read_regular b (bytes_of b)); [|apply to_int_small; lia | lia | lia].
  unfold bytes_of. rewrite Nat2Z.id, firstn_all. reflexivity.
Qed.
(** The compiler sees all of it.  Missing: bytes that are zero. *)
Theorem C181_text_partial : forall b, bytes_of b < 2 ^ 31 - 1 -> ~ In 0 b -> source_text (Regular b) = Ok b.
Proof. intros b L N. unfold source_text. rewrite C181_bytes_partial by exact L. cbn [rbind]. rewrite c_text_plain by exact N. reflexivity. Qed.
(** What is missing and what is no file is refused. *)
Theorem C181_no_file : read_text Missing = Thr /\ read_text Folder = Thr.
Proof. split; reflexivity. Qed.
(** REFUTED: that all of a file is compiled, or an error reported.  What stands behind a zero is
    ignored. *)
Theorem C181_zero_refuted : forall a c, bytes_of (a ++ 0 :: c) < 2 ^ 31 - 1 -> ~ In 0 a -> source_text (Regular (a ++ 0 :: c)) = Ok a.
Proof. intros a c L N. unfold source_text. rewrite C181_bytes_partial by exact L. cbn [rbind]. rewrite <- app_assoc. cbn [app]. rewrite c_text_plain by exact N. reflexivity. Qed.
(** REFUTED: that large files are refused.  Of a file of 2^32 bytes and n more only the first n
    are read, without an error. *)
Theorem C181_large_refuted : forall a c, bytes_of c = 2 ^ 32 -> bytes_of a < 2 ^ 31 - 1 -> read_text (Regular (a ++ c)) = Ok (a ++ [0]).
Proof.
  intros a c C A. assert (S : bytes_of (a ++ c) = 1 * 2 ^ 32 + bytes_of a) by (unfold bytes_of in *; rewrite app_length, Nat2Z.inj_add, C; lia). assert (0 <= bytes_of a) by (unfold bytes_of; lia).
  rewrite (read_regular (a ++ c) (bytes_of a)); [|rewrite S, to_int_more; apply to_int_small; lia | lia | lia].
  unfold bytes_of. rewrite Nat2Z.id, <- (Nat.add_0_r (List.length a)), firstn_app_2. cbn [firstn]. rewrite app_nil_r. reflexivity.
Qed.
(** REFUTED: from 2^31-1 bytes on, below 2^32-1, memory is written that is not there. *)
Theorem C181_size_refuted : forall b, 2 ^ 31 - 1 <= bytes_of b < 2 ^ 32 - 1 -> read_text (Regular b) = UB.
Proof.
  intros b L. unfold read_text. cbn [file_size]. fold (bytes_of b). destruct (Z.eq_dec (bytes_of b) (2 ^ 31 - 1)) as [->|N]; [reflexivity|].
  rewrite to_int_high by lia. destruct (Z.eqb_spec (bytes_of b - 2 ^ 32) (-1)); [lia|]. destruct (Z.eqb_spec (bytes_of b - 2 ^ 32 + 1) (2 ^ 31)); [reflexivity|]. destruct (Z.ltb_spec (bytes_of b - 2 ^ 32) 0); [reflexivity | lia].
Qed.

(** ** C182: whether a file exists *)

(** The answer for what is there.  Missing: names of nothing. *)
Theorem C182_exists_partial : forall n, n <> Missing -> exists a, exists_file n = Ok a /\ (a = true <-> exists b, n = Regular b).
Proof. intros [| |b] N; [congruence | exists false | exists true]; (split; [reflexivity|]); split; try discriminate; eauto. intros (b & E). discriminate. Qed.
(** REFUTED: that the answer for a missing file is no.  It depends on memory that has not been
    written. *)
Theorem C182_missing_refuted : forall n, exists_file n = UB <-> n = Missing.
Proof. intros [| |b]; split; try discriminate; reflexivity. Qed.

(** ** Cases *)
Example C181_case : source_text (Regular [118; 97; 114]) = Ok [118; 97; 114] /\ source_text (Regular [118; 0; 114]) = Ok [118] /\ source_text (Regular []) = Ok [].
Proof. repeat split; reflexivity. Qed.
(** There are files of these sizes. *)
Example C181_large_met : read_text (Regular ([118; 97] ++ repeat 114 (Z.to_nat (2 ^ 32)))) = Ok [118; 97; 0] /\ read_text (Regular (repeat 114 (Z.to_nat (2 ^ 31)))) = UB.
Proof.
  split; [apply (C181_large_refuted [118; 97]) | apply C181_size_refuted]; unfold bytes_of; rewrite ?repeat_length, ?Z2Nat.id by lia; try lia. cbn. lia.
Qed.
Example C182_case : exists_file (Regular [1]) = Ok true /\ exists_file Folder = Ok false.
Proof. split; reflexivity. Qed.

Print Assumptions C181_bytes_partial.
Print Assumptions C181_text_partial.
Print Assumptions C181_no_file.
Print Assumptions C181_zero_refuted.
Print Assumptions C181_large_refuted.
Print Assumptions C181_size_refuted.
Print Assumptions C182_exists_partial.
Print Assumptions C182_missing_refuted.
