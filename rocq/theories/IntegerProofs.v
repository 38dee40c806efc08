From Coq Require Import List ZArith Bool Lia.
From Verif Require Import Base StringModel StringSpec StringProofs IntegerModel IntegerSpec.
Import ListNotations.
Open Scope Z_scope.

(** ** The multiplication by 0.1 *)
Lemma log2_lt m k : 0 < m -> m < 2 ^ k -> 0 <= k -> Z.log2 m <= k - 1.
Proof. intros Hm H Hk. assert (Z.log2 m < k) by (apply Z.log2_lt_pow2; lia). lia. Qed.

Lemma rnd53_small m : 0 < m -> m < 2 ^ 53 -> rnd53 m = m.
Proof.
  intros H0 H. unfold rnd53. pose proof (log2_lt m 53 H0 H ltac:(lia)).
  destruct (Z.leb_spec (Z.log2 m - 52) 0); [reflexivity|lia].
Qed.

(** Rounding stays above every multiple of a larger power of two, and within half a step. *)
Lemma rnd53_bounds m t j : 0 < m -> 0 <= t -> 0 <= j -> t * 2 ^ j <= m -> Z.log2 m - 52 <= j -> t * 2 ^ j <= rnd53 m.
Proof.
  intros Hm Ht Hj Hle Hk. unfold rnd53. set (k := Z.log2 m - 52) in *.
  destruct (Z.leb_spec k 0) as [|Hk0]; [lia|].
  assert (Hp : 0 < 2 ^ k) by (apply Z.pow_pos_nonneg; lia).
  assert (E : t * 2 ^ j = t * 2 ^ (j - k) * 2 ^ k).
  { rewrite <- Z.mul_assoc, <- Z.pow_add_r by lia. do 2 f_equal. lia. }
  assert (Hq : t * 2 ^ (j - k) <= m / 2 ^ k) by (apply Z.div_le_lower_bound; lia).
  rewrite E. apply Z.mul_le_mono_nonneg_r; [lia|].
  destruct (m mod 2 ^ k <? 2 ^ (k - 1)); [lia|]. destruct (2 ^ (k - 1) <? m mod 2 ^ k); [lia|].
  destruct (Z.even (m / 2 ^ k)); lia.
Qed.
Lemma rnd53_upper m b : 0 < m -> 1 <= b -> Z.log2 m - 52 <= b -> rnd53 m <= m + 2 ^ (b - 1).
Proof.
  intros Hm Hb Hk. unfold rnd53. set (k := Z.log2 m - 52) in *.
  assert (0 < 2 ^ (b - 1)) by (apply Z.pow_pos_nonneg; lia).
  destruct (Z.leb_spec k 0) as [|Hk0]; [lia|].
  assert (Hp : 0 < 2 ^ k) by (apply Z.pow_pos_nonneg; lia).
  assert (Hh : 2 ^ k = 2 * 2 ^ (k - 1)).
  { rewrite <- Z.pow_succ_r by lia. f_equal. lia. }
  assert (Hmono : 2 ^ (k - 1) <= 2 ^ (b - 1)) by (apply Z.pow_le_mono_r; lia).
  pose proof (Z.div_mod m (2 ^ k) ltac:(lia)). pose proof (Z.mod_pos_bound m (2 ^ k) Hp).
  set (q := m / 2 ^ k) in *. set (r := m mod 2 ^ k) in *.
  destruct (Z.ltb_spec r (2 ^ (k - 1))); [nia|]. destruct (Z.ltb_spec (2 ^ (k - 1)) r); [nia|].
  destruct (Z.even q); nia.
Qed.

Definition BOUND : Z := 6755399441055748.
Lemma mul_tenth_ok n : 0 < n <= BOUND -> mul_tenth n = n / 10.
Proof.
  intros [H0 H]. unfold BOUND in H. unfold mul_tenth. rewrite (rnd53_small n) by (change (2 ^ 53) with 9007199254740992; lia).
  unfold tenth. set (m := n * 7205759403792794).
  pose proof (Z.div_mod n 10 ltac:(lia)) as Hd. pose proof (Z.mod_pos_bound n 10 ltac:(lia)) as Hr.
  set (t := n / 10) in *. set (r := n mod 10) in *.
  assert (Hm : 0 < m) by lia.
  assert (Hm10 : 10 * m = t * 10 * 2 ^ 56 + r * 2 ^ 56 + 4 * n).
  { change (2 ^ 56) with 72057594037927936. lia. }
  assert (Hlog : Z.log2 m - 52 <= 53).
  { pose proof (log2_lt m 106 Hm). assert (m < 2 ^ 106). { change (2 ^ 106) with 81129638414606681695789005144064. lia. } lia. }
  pose proof (rnd53_bounds m t 56 Hm ltac:(lia) ltac:(lia)) as L.
  pose proof (rnd53_upper m 53 Hm ltac:(lia) Hlog) as U.
  change (2 ^ (53 - 1)) with 4503599627370496 in U. change (2 ^ 56) with 72057594037927936 in *.
  symmetry. apply Z.div_unique with (r := rnd53 m - 72057594037927936 * t); lia.
Qed.

(** ** Digits *)
Lemma digit_of_val d c : digit_of d c -> digit_val c = d.
Proof.
  unfold digit_of, digit_val, is_digit, lower. intros H.
  destruct (Z.leb_spec 65 c), (Z.leb_spec c 90), (Z.leb_spec 48 c), (Z.leb_spec c 57); cbn [andb]; try lia;
  repeat match goal with |- context [Z.leb ?x ?y] => destruct (Z.leb_spec x y) end; cbn [andb]; lia.
Qed.
Lemma digit_of_nz d c : digit_of d c -> c <> 0.
Proof. unfold digit_of. intros [[H ->]|[H [->| ->]]]; lia. Qed.

Lemma writes_nonul base l v : writes base l v -> nonul l.
Proof.
  induction 1; [apply nonul_nil|]. apply nonul_app. split; auto. apply nonul_cons. split; [|apply nonul_nil].
  eapply digit_of_nz; eauto.
Qed.
Lemma writes_nonneg base l v : 0 < base -> writes base l v -> 0 <= v.
Proof. intros Hb; induction 1 as [|l v c d H IH Hd Hlt]; [lia|]. destruct Hd as [[]|[]]; nia. Qed.

Lemma digits_val_app base l v : writes base l v -> forall acc rest,
  digits_val base acc (l ++ rest) = digits_val base (acc * base ^ zlen l + v) rest.
Proof.
  induction 1 as [|l v c d H IH Hd Hlt]; intros acc rest.
  - cbn [app]. change (zlen (@nil Z)) with 0. f_equal. lia.
  - rewrite <- app_assoc. rewrite IH. cbn [app digits_val]. rewrite (digit_of_val _ _ Hd).
    destruct (Z.ltb_spec d base); [|lia]. f_equal. rewrite zlen_app. change (zlen [c]) with 1.
    rewrite Z.pow_add_r by (try apply zlen_nonneg; lia). lia.
Qed.
Lemma digits_val_ok base l v : writes base l v -> digits_val base 0 l = v.
Proof.
  intros H. rewrite <- (app_nil_r l), (digits_val_app base l v H). cbn [digits_val]. lia.
Qed.

(** Characters of a number in base [base]. *)
Lemma writes_chars base l v : writes base l v -> Forall (fun c => exists d, digit_of d c /\ d < base) l.
Proof. induction 1; [constructor|]. apply Forall_app. split; auto. constructor; eauto. Qed.

Lemma dec_char c : (exists d, digit_of d c /\ d < 10) -> is_digit c = true.
Proof.
  intros (d & [[H ->]|[H _]] & Hd); [|lia]. unfold is_digit.
  destruct (Z.leb_spec 48 (48 + d)), (Z.leb_spec (48 + d) 57); auto; lia.
Qed.
Lemma hex_char c : (exists d, digit_of d c /\ d < 16) -> is_hexa c = true.
Proof.
  intros (d & H & Hd). unfold is_hexa, is_digit, lower. unfold digit_of in H.
  destruct (Z.leb_spec 65 c), (Z.leb_spec c 90), (Z.leb_spec 48 c), (Z.leb_spec c 57); cbn [andb orb]; auto; try lia;
  repeat match goal with |- context [Z.leb ?x ?y] => destruct (Z.leb_spec x y) end; cbn [andb]; auto; lia.
Qed.
Lemma bin_char_ok c : (exists d, digit_of d c /\ d < 2) -> bin_char c = true.
Proof.
  intros (d & [[H ->]|[H _]] & Hd); [|lia]. assert (d = 0 \/ d = 1) as [-> | ->] by lia; reflexivity.
Qed.

Lemma skip_app p l r : Forall (fun c => p c = true) l -> skip p (l ++ r) = skip p r.
Proof. induction 1 as [|c l Hc H IH]; cbn [app skip]; auto. now rewrite Hc. Qed.
Lemma skip_all p l : Forall (fun c => p c = true) l -> skip p l = [].
Proof. intros H. rewrite <- (app_nil_r l). rewrite skip_app; auto. Qed.
Lemma skip_length p l : (length (skip p l) <= length l)%nat.
Proof. induction l as [|c l IH]; cbn [skip length]; auto. destruct (p c); cbn [length]; lia. Qed.
Lemma Forall_impl' {A} (P Q : A -> Prop) l : (forall x, P x -> Q x) -> Forall P l -> Forall Q l.
Proof. intros H F. now apply (Forall_impl Q H). Qed.

(** The binary check stops at a character that is no 'b', for a text of decimal digits. *)
Lemma skip_bin_dec l r : Forall (fun c => is_digit c = true) l -> lower (head0 r) <> 98 ->
  (lower (head0 (skip bin_char (l ++ r))) =? 98) = false \/ l = l /\ skip bin_char (l ++ r) = skip bin_char r.
Proof.
  intros F H. induction F as [|c l Hc F IH]; cbn [app]; auto.
  cbn [skip]. destruct (bin_char c) eqn:E.
  - destruct IH as [IH|[_ IH]]; auto.
  - left. cbn [head0]. unfold is_digit in Hc. apply andb_true_iff in Hc. destruct Hc as [H1 H2].
    apply Z.leb_le in H1, H2. unfold lower. destruct (Z.leb_spec 65 c); [lia|]. cbn [andb].
    destruct (Z.eqb_spec c 98); [lia|reflexivity].
Qed.

Lemma is_integer_ok s l : srep s l -> is_integer s = Ok (match l with [] => IInvalid | _ => classify l end).
Proof.
  intros R. unfold is_integer. rewrite (sr_count _ _ R). destruct l as [|c l].
  - reflexivity.
  - rewrite zlen_cons. pose proof (zlen_nonneg l). destruct (Z.eqb_spec (zlen l + 1) 0); [lia|].
    rewrite (cstr_cchars s _ R). reflexivity.
Qed.

Lemma classify_dec l : l <> [] -> Forall (fun c => is_digit c = true) l -> classify l = IInt.
Proof.
  intros Hne F. unfold classify.
  assert (E1 : (lower (head0 (skip bin_char l)) =? 98) = false).
  { pose proof (skip_bin_dec l [] F) as H. rewrite app_nil_r in H. destruct H as [H|[_ H]]; auto.
    - cbn. discriminate.
    - rewrite H. reflexivity. }
  rewrite E1.
  assert (E2 : (head0 l =? 48) && (lower (head0 (tl l)) =? 120) = false).
  { destruct l as [|c l]; [congruence|]. cbn [head0 tl]. apply andb_false_iff. right.
    inversion F; subst. destruct l as [|d l]; [reflexivity|]. cbn [head0]. inversion H2; subst.
    unfold is_digit in H3. apply andb_true_iff in H3. destruct H3 as [A1 A2]. apply Z.leb_le in A1, A2.
    unfold lower. destruct (Z.leb_spec 65 d); [lia|]. cbn [andb]. destruct (Z.eqb_spec d 120); [lia|reflexivity]. }
  rewrite E2. rewrite skip_all; auto.
Qed.

Lemma digits_nonneg c : is_digit c = true -> 48 <= c <= 57.
Proof. unfold is_digit. intros H. apply andb_true_iff in H. destruct H. apply Z.leb_le in H, H0. lia. Qed.

Lemma skip_none p l : p (head0 l) = false -> skip p l = l.
Proof. destruct l as [|c l]; auto. cbn [head0 skip]. now intros ->. Qed.

Lemma strtoll_digits base l : base <= 10 -> (head0 l =? 0) = false -> is_digit (head0 l) = true ->
  strtoll base l = Z.max LLMIN (Z.min LLMAX (digits_val base 0 l)).
Proof.
  intros Hb Hz Hd. apply digits_nonneg in Hd. unfold strtoll.
  assert (Es : is_space (head0 l) = false).
  { unfold is_space. destruct (Z.eqb_spec (head0 l) 32); [lia|]. destruct (Z.leb_spec (head0 l) 13); [lia|]. apply andb_false_r. }
  rewrite (skip_none is_space l Es).
  destruct (Z.eqb_spec (head0 l) 45); [lia|]. destruct (Z.eqb_spec (head0 l) 43); [lia|]. cbn [orb].
  destruct (Z.eqb_spec base 16); [lia|]. cbn [andb]. reflexivity.
Qed.

Lemma parse_decimal_ok s l v : srep s l -> l <> [] -> writes 10 l v -> z_parse s = Ok (Some (Z.min LLMAX v)).
Proof.
  intros R Hne W. unfold z_parse. rewrite (is_integer_ok s l R). cbn [rbind].
  pose proof (writes_chars _ _ _ W) as F. apply (Forall_impl' _ _ _ dec_char) in F.
  destruct l as [|c l]; [congruence|]. rewrite classify_dec; auto. rewrite (cstr_cchars s _ R). cbn [ofo rbind].
  do 2 f_equal. inversion F; subst. rewrite strtoll_digits; auto; try lia.
  - rewrite (digits_val_ok 10 _ v W). pose proof (writes_nonneg 10 _ v ltac:(lia) W). unfold LLMIN, LLMAX. lia.
  - cbn [head0]. apply digits_nonneg in H1. destruct (Z.eqb_spec c 0); auto. lia.
Qed.

Lemma parse_hex_ok s x l v : srep s (48 :: x :: l) -> (x = 120 \/ x = 88) -> l <> [] -> writes 16 l v ->
  z_parse s = Ok (Some (Z.min LLMAX v)).
Proof.
  intros R Hx Hne W. unfold z_parse. rewrite (is_integer_ok s _ R). cbn [rbind].
  pose proof (writes_chars _ _ _ W) as F0. pose proof (Forall_impl' _ _ _ hex_char F0) as F.
  assert (Hl : lower x = 120) by (destruct Hx as [-> | ->]; reflexivity).
  assert (Ec : classify (48 :: x :: l) = IHexa).
  { unfold classify. cbn [skip]. change (bin_char 48) with true. cbn [skip].
    assert (bin_char x = false) by (destruct Hx as [-> | ->]; reflexivity). rewrite H. cbn [head0 tl]. rewrite Hl.
    cbn [Z.eqb Pos.eqb andb skipn]. rewrite (skip_all is_hexa l F).
    destruct l; [congruence|]. reflexivity. }
  rewrite Ec. rewrite (cstr_cchars s _ R). cbn [ofo rbind]. do 2 f_equal. unfold strtoll.
  cbn [skip]. change (is_space 48) with false. cbn [skip head0 tl].
  change (48 =? 45) with false. change (48 =? 43) with false. cbn [orb]. cbn [head0 tl]. rewrite Hl.
  assert (Hd : (digit_val (head0 l) <? 16) = true).
  { destruct l as [|c l]; [congruence|]. cbn [head0]. inversion F0; subst. destruct H1 as (d & Hd & Hlt).
    rewrite (digit_of_val _ _ Hd). apply Z.ltb_lt. lia. }
  rewrite Hd. cbn [Z.eqb Pos.eqb andb]. rewrite (digits_val_ok 16 _ v W).
  pose proof (writes_nonneg 16 _ v ltac:(lia) W). unfold LLMIN, LLMAX. lia.
Qed.

Lemma parse_bin_ok s x l v : srep s (l ++ [x]) -> (x = 98 \/ x = 66) -> l <> [] -> writes 2 l v ->
  z_parse s = Ok (Some (Z.min LLMAX v)).
Proof.
  intros R Hx Hne W. unfold z_parse. rewrite (is_integer_ok s _ R). cbn [rbind].
  pose proof (writes_chars _ _ _ W) as F0. pose proof (Forall_impl' _ _ _ bin_char_ok F0) as F.
  assert (Ec : match l ++ [x] with [] => IInvalid | _ :: _ => classify (l ++ [x]) end = IBinary).
  { assert (Hc : classify (l ++ [x]) = IBinary).
    { unfold classify. rewrite skip_app by auto. cbn [skip].
      assert (bin_char x = false) by (destruct Hx as [-> | ->]; reflexivity). rewrite H. cbn [head0].
      assert (lower x = 98) by (destruct Hx as [-> | ->]; reflexivity). rewrite H0. reflexivity. }
    destruct l; [congruence|]. exact Hc. }
  rewrite Ec. rewrite (sr_count _ _ R), zlen_app. change (zlen [x]) with 1. replace (zlen l + 1 - 1) with (zlen l) by lia.
  destruct (getSub_ok s [] l [x] R) as (r & Er & Rr & _). rewrite zlen_nil in Er. rewrite Er. cbn [rbind].
  rewrite (cstr_cchars r _ Rr). cbn [ofo rbind]. do 2 f_equal.
  destruct l as [|c l]; [congruence|]. inversion F; subst.
  assert (is_digit c = true). { unfold bin_char in H1. apply andb_true_iff in H1. tauto. }
  rewrite strtoll_digits; auto; try lia.
  - rewrite (digits_val_ok 2 _ v W). pose proof (writes_nonneg 2 _ v ltac:(lia) W). unfold LLMIN, LLMAX. lia.
  - cbn [head0]. apply digits_nonneg in H. destruct (Z.eqb_spec c 0); auto. lia.
Qed.

(** ** toString *)
Fixpoint rdig (fuel : nat) (n : Z) : list Z :=
  match fuel with
  | O => []
  | S f => if n =? 0 then [] else (n mod 10 + 48) :: rdig f (n / 10)
  end.

Lemma digit_loop_ok : forall fuel n acc l, srep acc l -> 0 <= n <= BOUND -> n < 10 ^ Z.of_nat fuel ->
  exists r, digit_loop (S fuel) n acc = Ok r /\ srep r (l ++ rdig (S fuel) n).
Proof.
  induction fuel as [|fuel IH]; intros n acc l R Hn Hf.
  - change (10 ^ Z.of_nat 0) with 1 in Hf. assert (n = 0) by lia. subst. exists acc. cbn. now rewrite app_nil_r.
  - remember (S fuel) as fuel' eqn:Ef. cbn [digit_loop rdig]. destruct (Z.eqb_spec n 0) as [->|Hn0].
    + exists acc. now rewrite app_nil_r.
    + pose proof (Z.mod_pos_bound n 10 ltac:(lia)).
      destruct (append_char_ok acc l (n mod 10 + 48) R ltac:(lia)) as (a & Ea & Ra). rewrite Ea. cbn [rbind].
      rewrite mul_tenth_ok by lia. subst fuel'.
      assert (Hpow : 10 ^ Z.of_nat (S fuel) = 10 * 10 ^ Z.of_nat fuel).
      { rewrite Nat2Z.inj_succ, Z.pow_succ_r by lia. reflexivity. }
      destruct (IH (n / 10) a _ Ra) as (r & Er & Rr).
      * split; [apply Z.div_pos; lia|]. apply Z.div_le_upper_bound; lia.
      * apply Z.div_lt_upper_bound; lia.
      * exists r. split; auto. now rewrite <- app_assoc in Rr.
Qed.

Lemma rdig_writes : forall fuel n, 0 <= n -> n < 10 ^ Z.of_nat fuel -> writes 10 (rev (rdig fuel n)) n.
Proof.
  induction fuel as [|fuel IH]; intros n H0 Hf.
  - change (10 ^ Z.of_nat 0) with 1 in Hf. assert (n = 0) by lia. subst. constructor.
  - cbn [rdig]. destruct (Z.eqb_spec n 0) as [->|Hn]; [constructor|]. cbn [rev].
    pose proof (Z.mod_pos_bound n 10 ltac:(lia)). rewrite (Z.div_mod n 10) at 3 by lia.
    assert (Hpow : 10 ^ Z.of_nat (S fuel) = 10 * 10 ^ Z.of_nat fuel).
    { rewrite Nat2Z.inj_succ, Z.pow_succ_r by lia. reflexivity. }
    rewrite (Z.mul_comm 10). constructor.
    + apply IH; [apply Z.div_pos; lia|apply Z.div_lt_upper_bound; lia].
    + left. split; lia.
    + lia.
Qed.
Lemma rdig_top : forall fuel n, 0 < n -> n < 10 ^ Z.of_nat fuel ->
  rdig fuel n <> [] /\ last (rdig fuel n) 0 <> 48.
Proof.
  induction fuel as [|fuel IH]; intros n H0 Hf.
  - change (10 ^ Z.of_nat 0) with 1 in Hf. lia.
  - cbn [rdig]. destruct (Z.eqb_spec n 0) as [->|Hn]; [lia|]. split; [discriminate|].
    assert (Hpow : 10 ^ Z.of_nat (S fuel) = 10 * 10 ^ Z.of_nat fuel).
    { rewrite Nat2Z.inj_succ, Z.pow_succ_r by lia. reflexivity. }
    destruct (Z.eq_dec (n / 10) 0) as [E|E].
    + rewrite E. assert (rdig fuel 0 = []) by (destruct fuel; reflexivity). rewrite H. cbn [last].
      pose proof (Z.div_mod n 10 ltac:(lia)). rewrite E in *. lia.
    + assert (0 < n / 10) by (pose proof (Z.div_pos n 10 ltac:(lia) ltac:(lia)); lia).
      destruct (IH (n / 10) H) as [A1 A2]; [apply Z.div_lt_upper_bound; lia|].
      destruct (rdig fuel (n / 10)); [congruence|]. exact A2.
Qed.
Lemma hd_rev (l : list Z) : hd 0 (rev l) = last l 0.
Proof.
  induction l as [|x l IH] using rev_ind; auto. rewrite rev_app_distr. cbn [rev app hd]. now rewrite last_last.
Qed.

(** In-place reversal. *)
Lemma put_mid s a x b c i : srep s (a ++ x :: b) -> c <> 0 -> i = zlen a ->
  exists s', s_put s i c = Ok s' /\ srep s' (a ++ c :: b).
Proof.
  intros R Hc ->. pose proof (put_ok s _ (zlen a) c R Hc) as P. rewrite zlen_app, zlen_cons in P.
  pose proof (zlen_nonneg a). pose proof (zlen_nonneg b).
  destruct (Z.leb_spec 0 (zlen a)); [|lia]. destruct (Z.ltb_spec (zlen a) (zlen a + (zlen b + 1))); [|lia].
  cbn [andb] in P. destruct P as (s' & E & R'). exists s'. split; auto.
  rewrite to_nat_zlen, upd_app_r, Nat.sub_diag in R' by lia. exact R'.
Qed.
Lemma at_mid s a x b i : srep s (a ++ x :: b) -> i = zlen a -> s_at s i = Ok x.
Proof.
  intros R ->. rewrite (at_ok s _ _ R), zlen_app, zlen_cons. pose proof (zlen_nonneg a). pose proof (zlen_nonneg b).
  destruct (Z.leb_spec 0 (zlen a)); [|lia]. destruct (Z.ltb_spec (zlen a) (zlen a + (zlen b + 1))); [|lia].
  cbn [andb]. rewrite to_nat_zlen, nth_middle. reflexivity.
Qed.

Lemma swap_loop_ok : forall n a mid b s, srep s (a ++ mid ++ b) -> zlen a = zlen b ->
  n = Nat.div2 (length mid) ->
  exists s', swap_loop n (zlen (a ++ mid ++ b)) (zlen a) s = Ok s' /\ srep s' (a ++ rev mid ++ b).
Proof.
  induction n as [|n IH]; intros a mid b s R Hab Hn.
  - destruct mid as [|x [|y mid]]; [exists s; auto|exists s; auto|cbn in Hn; discriminate].
  - destruct mid as [|x mid]; [discriminate|].
    destruct (exists_last (l := mid)) as (m & y & ->).
    { intros ->. discriminate. }
    cbn [app] in *. rewrite <- app_assoc in *. cbn [app] in *.
    assert (Hlen : length m = (length (x :: m ++ [y]) - 2)%nat) by (cbn [length]; rewrite app_length; cbn; lia).
    assert (Hn' : n = Nat.div2 (length m)).
    { cbn [length] in Hn. rewrite app_length in Hn. cbn [length] in Hn. rewrite Nat.add_comm in Hn. cbn in Hn. lia. }
    set (len := zlen (a ++ x :: m ++ y :: b)).
    assert (El : len = zlen a + zlen m + zlen b + 2).
    { unfold len. rewrite !zlen_app, !zlen_cons, !zlen_app, !zlen_cons. lia. }
    assert (Hnx : x <> 0 /\ y <> 0).
    { pose proof (sr_nonul _ _ R) as H. rewrite nonul_app, nonul_cons, nonul_app, nonul_cons in H. tauto. }
    cbn [swap_loop].
    rewrite (at_mid s (a ++ x :: m) y b (len - zlen a - 1)).
    2:{ rewrite <- app_assoc. exact R. }
    2:{ rewrite zlen_app, zlen_cons. lia. }
    cbn [rbind]. rewrite (at_mid s a x (m ++ y :: b) (zlen a)) by auto. cbn [rbind].
    destruct (put_mid s (a ++ x :: m) y b x (len - zlen a - 1)) as (s1 & -> & R1).
    { now rewrite <- app_assoc. } { tauto. } { rewrite zlen_app, zlen_cons. lia. }
    cbn [rbind]. rewrite <- app_assoc in R1. cbn [app] in R1.
    destruct (put_mid s1 a x (m ++ x :: b) y (zlen a)) as (s2 & -> & R2); auto. { tauto. }
    cbn [rbind].
    destruct (IH (a ++ [y]) m (x :: b) s2) as (s3 & E3 & R3).
    { rewrite <- app_assoc. exact R2. }
    { rewrite zlen_app, (zlen_cons x b). change (zlen [y]) with 1. lia. }
    { auto. }
    exists s3. split.
    + rewrite <- E3. rewrite <- app_assoc. cbn [app].
      replace (zlen (a ++ [y])) with (zlen a + 1) by (rewrite zlen_app; reflexivity).
      f_equal. rewrite !zlen_app, !zlen_cons, !zlen_app, !zlen_cons. lia.
    + cbn [rev]. rewrite rev_app_distr. cbn [rev app]. rewrite <- app_assoc in R3. cbn [app] in R3.
      rewrite <- app_assoc. exact R3.
Qed.

Lemma reverse_ok s l : srep s l -> exists s', swap_loop (Z.to_nat (scount s / 2)) (scount s) 0 s = Ok s' /\ srep s' (rev l).
Proof.
  intros R. rewrite (sr_count _ _ R).
  destruct (swap_loop_ok (Nat.div2 (length l)) [] l [] s) as (s' & E & R').
  { cbn [app]. now rewrite app_nil_r. } { auto. } { auto. }
  cbn [app] in *. rewrite app_nil_r in *. exists s'. split; auto. rewrite <- E.
  rewrite zlen_nil. f_equal. unfold zlen. rewrite Nat.div2_div. rewrite Z2Nat.inj_div by lia.
  rewrite Nat2Z.id. reflexivity.
Qed.

Lemma pad_loop_ok n : forall s l, srep s l -> exists s', pad_loop n s = Ok s' /\ srep s' (repeat 48 n ++ l).
Proof.
  induction n as [|n IH]; intros s l R; cbn [pad_loop repeat app]; [eauto|].
  destruct (s_lit_ok [48]) as (z & -> & Rz & _). { apply nonul_cons. split; [lia|apply nonul_nil]. }
  cbn [rbind]. destruct (plus_ok z [48] s l Rz R) as (r & -> & Rr). cbn [rbind].
  destruct (s_copy_ok r _ Rr) as (r' & -> & Rr' & _). cbn [rbind].
  destruct (IH r' _ Rr') as (s' & E & R'). exists s'. split; auto.
  change (48 :: l) with ([48] ++ l) in R'. rewrite app_assoc in R'.
  replace (repeat 48 n ++ [48]) with (48 :: repeat 48 n) in R'; auto.
  clear. induction n; cbn; [reflexivity|]. now rewrite IHn.
Qed.

(** The digits printed for [n]. *)
Definition dec (n : Z) : list Z := if n =? 0 then [48] else rev (rdig 64 n).
Lemma pow64 : 10 ^ Z.of_nat 63 = 1000000000000000000000000000000000000000000000000000000000000000.
Proof. reflexivity. Qed.
Lemma dec_decimal n : 0 <= n <= BOUND -> decimal n (dec n).
Proof.
  intros H. unfold BOUND in H. unfold decimal, dec. destruct (Z.eqb_spec n 0) as [->|Hn].
  - split; [discriminate|]. split; [|auto]. apply (w_snoc 10 [] 0 48 0); [constructor|left; lia|lia].
  - assert (Hlt : n < 10 ^ Z.of_nat 64).
    { change (10 ^ Z.of_nat 64) with 10000000000000000000000000000000000000000000000000000000000000000. lia. }
    destruct (rdig_top 64 n) as [A1 A2]; [lia|exact Hlt|]. split; [|split].
    + intros E. apply (f_equal (@rev Z)) in E. rewrite rev_involutive in E. auto.
    + apply rdig_writes; [lia|exact Hlt].
    + right. now rewrite hd_rev.
Qed.

Lemma toString_body n : 0 <= n <= BOUND ->
  exists r1 r2, (if n =? 0 then s_lit [48] else do e <- s_lit []; digit_loop 64 n e) = Ok r1 /\
    swap_loop (Z.to_nat (scount r1 / 2)) (scount r1) 0 r1 = Ok r2 /\ srep r2 (dec n).
Proof.
  intros H. unfold dec. destruct (Z.eqb_spec n 0) as [->|Hn].
  - destruct (s_lit_ok [48]) as (z & Ez & Rz & _). { apply nonul_cons. split; [lia|apply nonul_nil]. }
    destruct (reverse_ok z _ Rz) as (r2 & E2 & R2). exists z, r2. auto.
  - destruct (s_lit_ok [] nonul_nil) as (e & -> & Re & _). cbn [rbind].
    destruct (digit_loop_ok 63 n e [] Re H) as (r1 & E1 & R1).
    { rewrite pow64. unfold BOUND in H. lia. }
    destruct (reverse_ok r1 _ R1) as (r2 & E2 & R2). exists r1, r2. auto.
Qed.

Lemma toLower_empty f : srep f [] -> exists f', s_toLower f = Ok f' /\ srep f' [].
Proof. intros R. apply (case_ok lower f [] lower_nz R). rewrite zlen_nil. lia. Qed.

(** Plain format. *)
Lemma toString_ok n f : srep f [] -> - BOUND <= n <= BOUND ->
  exists r, z_toString n f = Ok r /\ srep r (if n <? 0 then 45 :: dec (- n) else dec n).
Proof.
  intros Rf Hn. unfold z_toString.
  destruct (s_lit_ok [48]) as (z & Ez & Rz & _). { apply nonul_cons. split; [lia|apply nonul_nil]. }
  rewrite Ez. cbn [rbind]. destruct (toLower_empty f Rf) as (f' & -> & Rf'). cbn [rbind].
  unfold BOUND in *. destruct (Z.eqb_spec n LLMIN); [unfold LLMIN in *; lia|].
  destruct (toString_body (Z.abs n)) as (r1 & r2 & E1 & E2 & R2). { unfold BOUND; lia. }
  rewrite Ez in E1. rewrite E1. cbn [rbind]. rewrite E2. cbn [rbind].
  rewrite (cstr_cchars f' _ Rf'). cbn [ofo rbind]. rewrite (sr_count _ _ Rf'), zlen_nil. cbn [Z.eqb rbind].
  destruct (Z.ltb_spec n 0).
  - rewrite Z.abs_neq in R2 by lia.
    destruct (s_lit_ok [45]) as (m & -> & Rm & _). { apply nonul_cons. split; [lia|apply nonul_nil]. }
    cbn [rbind]. destruct (plus_ok m _ r2 _ Rm R2) as (r & -> & Rr). eauto.
  - rewrite Z.abs_eq in R2 by lia. eauto.
Qed.

(** Format "d<k>". *)
Lemma toString_pad_ok n f w k : 0 <= n <= BOUND -> srep f (100 :: w) -> w <> [] -> writes 10 w k -> k < 2147483648 ->
  zlen w < 32767 ->
  exists r, z_toString n f = Ok r /\ srep r (repeat 48 (Z.to_nat (k - zlen (dec n))) ++ dec n).
Proof.
  intros Hn Rf Hw Ww Hk Hlw. unfold z_toString.
  destruct (s_lit_ok [48]) as (z & Ez & Rz & _). { apply nonul_cons. split; [lia|apply nonul_nil]. }
  rewrite Ez. cbn [rbind].
  destruct (case_ok lower f _ lower_nz Rf) as (f' & Ef & Rf'). { rewrite zlen_cons. lia. }
  unfold s_toLower. rewrite Ef. cbn [rbind]. cbn [map] in Rf'. change (lower 100) with 100 in Rf'.
  assert (Hwl : map lower w = w).
  { pose proof (Forall_impl' _ _ _ dec_char (writes_chars _ _ _ Ww)) as F. clear -F.
    induction F as [|c l Hc F IH]; auto. cbn [map]. rewrite IH. f_equal. apply digits_nonneg in Hc. unfold lower.
    destruct (Z.leb_spec 65 c); [lia|reflexivity]. }
  rewrite Hwl in Rf'.
  unfold BOUND in *. destruct (Z.eqb_spec n LLMIN); [unfold LLMIN in *; lia|]. rewrite Z.abs_eq by lia.
  destruct (toString_body n) as (r1 & r2 & E1 & E2 & R2). { unfold BOUND; lia. }
  rewrite Ez in E1. rewrite E1. cbn [rbind]. rewrite E2. cbn [rbind].
  rewrite (cstr_cchars f' _ Rf'). cbn [ofo rbind]. rewrite (sr_count _ _ Rf'), zlen_cons. pose proof (zlen_nonneg w).
  destruct (Z.eqb_spec (zlen w + 1) 0); [lia|]. cbn [head0 tl]. rewrite Z.eqb_refl.
  destruct (s_lit_ok w) as (rest & -> & Rr & _). { eapply writes_nonul; eauto. }
  cbn [rbind]. rewrite (parse_decimal_ok rest w k Rr Hw Ww). cbn [rbind].
  rewrite (sr_count _ _ R2). replace (Z.min LLMAX k) with k by (unfold LLMAX; lia).
  pose proof (writes_nonneg 10 _ _ ltac:(lia) Ww).
  assert (Hd : zlen (dec n) <= 64).
  { unfold dec. destruct (n =? 0); [cbn; lia|]. unfold zlen. rewrite rev_length.
    assert (G : forall m x, (length (rdig m x) <= m)%nat) by (intros m; induction m; intros x; cbn; [lia|destruct (x =? 0); cbn; [lia|]; specialize (IHm (x / 10)); lia]).
    specialize (G 64%nat n). lia. }
  pose proof (zlen_nonneg (dec n)).
  assert (to_int (k - zlen (dec n)) = k - zlen (dec n)) as ->.
  { unfold to_int. rewrite Z.mod_small by lia. lia. }
  destruct (pad_loop_ok (Z.to_nat (k - zlen (dec n))) r2 _ R2) as (r & -> & Rr'). cbn [rbind].
  destruct (Z.ltb_spec n 0); [lia|]. eauto.
Qed.
