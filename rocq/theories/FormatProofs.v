(** String::format puts the pieces together. *)
From Coq Require Import List ZArith Bool Lia.
From Verif Require Import Base StringModel StringSpec StringProofs IntegerModel IntegerSpec IntegerProofs IntegerProps
  FormatModel FormatSpec.
Import ListNotations.
Open Scope Z_scope.

Lemma srep_buf s l : srep s l -> l <> [] -> sbuf s <> None.
Proof. intros R H. destruct (sr_buf _ _ R) as [(_ & E & _)|(k & _ & E & _)]; congruence. Qed.

Lemma strchr_some c s a b : strchr c s = Some (a, b) -> s = a ++ c :: b /\ ~ In c a.
Proof.
  revert a b. induction s as [|x s IH]; intros a b E; cbn [strchr] in E; [discriminate|].
  destruct (Z.eqb_spec x c) as [->|Hx]; [injection E as <- <-; cbn; auto|].
  destruct (strchr c s) as [[a' b']|]; [|discriminate]. injection E as <- <-.
  destruct (IH a' b' eq_refl) as [-> H]. split; [reflexivity|]. intros [K|K]; [congruence|contradiction].
Qed.
Lemma strchr_none c s : strchr c s = None <-> ~ In c s.
Proof.
  induction s as [|x s IH]; cbn [strchr]; [cbn; tauto|]. destruct (Z.eqb_spec x c) as [->|Hx].
  - split; [discriminate|]. intros H. destruct H. now left.
  - destruct (strchr c s) as [[a b]|]; [split; [discriminate|]|].
    + intros H. exfalso. destruct IH as [_ IH]. discriminate IH. intros K. apply H. now right.
    + split; [|reflexivity]. intros _ [K|K]; [congruence|]. destruct IH as [IH _]. now apply IH.
Qed.
Lemma strchr_at c a b : ~ In c a -> strchr c (a ++ c :: b) = Some (a, b).
Proof.
  induction a as [|x a IH]; intros H; cbn [app strchr]; [now rewrite Z.eqb_refl|].
  destruct (Z.eqb_spec x c) as [->|]; [destruct H; now left|]. rewrite IH; [reflexivity|]. intros K. apply H. now right.
Qed.

Lemma add_chars_ok l : forall s m, srep s m -> nonul l -> exists r, add_chars s l = Ok r /\ srep r (m ++ l).
Proof.
  induction l as [|c l IH]; intros s m R N; cbn [add_chars]; [exists s; rewrite app_nil_r; auto|].
  apply nonul_cons in N as [Hc N]. destruct (append_char_ok s m c R Hc) as (s' & -> & R'). cbn [rbind].
  destruct (IH s' _ R' N) as (r & E & Rr). exists r. split; [exact E|]. now rewrite <- app_assoc in Rr.
Qed.
Lemma of_chars_ok l : nonul l -> exists r, of_chars l = Ok r /\ srep r l.
Proof.
  intros N. unfold of_chars. destruct (s_lit_ok [] nonul_nil) as (e & -> & Re & _). cbn [rbind].
  destruct (add_chars_ok l e [] Re N) as (r & E & R). exists r. auto.
Qed.
Lemma add_spaces_ok n : forall s m, srep s m -> exists r, add_spaces n s = Ok r /\ srep r (m ++ repeat 32 n).
Proof.
  induction n as [|n IH]; intros s m R; cbn [add_spaces repeat]; [exists s; rewrite app_nil_r; auto|].
  destruct (append_char_ok s m 32 R) as (s' & -> & R'); [lia|]. cbn [rbind].
  destruct (IH s' _ R') as (r & E & Rr). exists r. split; [exact E|]. now rewrite <- app_assoc in Rr.
Qed.

(** Integer::parse always answers. *)
Lemma z_parse_total s l : srep s l -> exists r, z_parse s = Ok r.
Proof.
  intros R. unfold z_parse. rewrite (is_integer_ok s l R). cbn [rbind].
  destruct l as [|c l]; [eauto|]. destruct (classify (c :: l)) eqn:E; eauto.
  - rewrite (cstr_cchars s _ R). cbn [ofo rbind]. eauto.
  - rewrite (sr_count _ _ R).
    destruct (exists_last (l := c :: l)) as (u & x & Eu); [discriminate|]. rewrite Eu in R |- *.
    rewrite zlen_app. change (zlen [x]) with 1. replace (zlen u + 1 - 1) with (zlen u) by lia.
    destruct (getSub_ok s [] u [x] R) as (r & Er & Rr & _). change (zlen (@nil Z)) with 0 in Er. rewrite Er. cbn [rbind].
    rewrite (cstr_cchars r _ Rr). cbn [ofo rbind]. eauto.
  - rewrite (cstr_cchars s _ R). cbn [ofo rbind]. eauto.
Qed.
Lemma number_parse l n s : number l n -> srep s l -> z_parse s = Ok (Some n) /\ to_int n = n /\ 0 <= n.
Proof.
  intros (H1 & H2 & H3) R. pose proof (writes_nonneg 10 _ n ltac:(lia) H2).
  rewrite (C20_decimal_value s l n R H1 H2) by lia. split; [reflexivity|]. split; [|assumption].
  unfold to_int. rewrite Z.mod_small; lia.
Qed.
Lemma number_digits l n : number l n -> Forall (fun c => 48 <= c <= 57) l.
Proof.
  intros (_ & W & _). induction W as [|l v c d W IH D Hd]; [constructor|]. apply Forall_app. split; [exact IH|].
  constructor; [|constructor]. destruct D as [D|D]; lia.
Qed.
Lemma digits_nonul l : Forall (fun c => 48 <= c <= 57) l -> nonul l.
Proof. apply Forall_impl. intros; lia. Qed.
Lemma digits_not_in c l : Forall (fun c => 48 <= c <= 57) l -> (c < 48 \/ 57 < c) -> ~ In c l.
Proof. intros F H K. rewrite Forall_forall in F. specialize (F _ K). cbn in F. lia. Qed.

(** ** Texts of arguments *)
Lemma all_eq (x : Z) l : Forall (eq x) l -> l = repeat x (length l).
Proof. induction 1 as [|y l <- F IH]; cbn; [reflexivity|now rewrite <- IH]. Qed.
Lemma writes_pos l v : writes 10 l v -> l <> [] -> hd 0 l <> 48 -> 0 < v.
Proof.
  induction 1 as [|l v c d W IH D Hd]; intros H1 H2; [congruence|]. pose proof (writes_nonneg 10 l v ltac:(lia) W).
  destruct l as [|x l]; [|assert (0 < v) by (apply IH; [discriminate|exact H2]); destruct D; lia].
  cbn in H2. inversion W; subst; [|destruct l; discriminate]. destruct D; lia.
Qed.
Definition nolead (l : list Z) : Prop := l = [] \/ hd 0 l <> 48.
Lemma writes_inj l v : writes 10 l v -> forall l', writes 10 l' v -> nolead l -> nolead l' -> l = l'.
Proof.
  induction 1 as [|l v c d W IH D Hd]; intros l' W' N N'.
  - destruct l' as [|x l']; [reflexivity|]. exfalso. destruct N' as [N'|N']; [discriminate|].
    pose proof (writes_pos _ _ W' ltac:(discriminate) N'). lia.
  - inversion W' as [E0 E1|m v' c' d' W2 D2 Hd2 E0 E1]; subst.
    + exfalso. destruct N as [N|N]; [destruct l; discriminate|].
      assert (H : 0 < v * 10 + d) by (apply (writes_pos (l ++ [c])); [now constructor|destruct l; discriminate|exact N]). lia.
    + assert (v' = v /\ d' = d) as [-> ->] by (destruct D as [D|D], D2 as [D2|D2]; lia).
      assert (c' = c) as -> by (destruct D as [D|D], D2 as [D2|D2]; lia). f_equal. apply IH; auto.
      * destruct l as [|x l]; [now left|]. right. destruct N as [N|N]; [discriminate|exact N].
      * destruct m as [|x m]; [now left|]. right. destruct N' as [N'|N']; [discriminate|exact N'].
Qed.
Lemma decimal_unique n l l' : decimal n l -> decimal n l' -> l = l'.
Proof.
  intros (A & B & C) (A' & B' & C').
  assert (Z0 : forall m, m = [48] -> writes 10 m n -> n = 0).
  { intros m -> W. inversion W as [|u v c d W2 D Hd E0 E1]. destruct u as [|x u]; [|destruct u; discriminate].
    injection E0 as ->. inversion W2; subst; [|destruct l0; discriminate]. destruct D; lia. }
  destruct C as [C|C].
  - pose proof (Z0 l C B). destruct C' as [C'|C']; [congruence|]. pose proof (writes_pos l' n B' A' C'). lia.
  - destruct C' as [C'|C'].
    + pose proof (Z0 l' C' B'). pose proof (writes_pos l n B A C). lia.
    + eapply writes_inj; eauto; now right.
Qed.

Lemma shown_ok a f t : shown a f t -> exists r, arg_text a f = Ok r /\ srep r t /\ sbuf r <> None.
Proof.
  destruct 1 as [l f N|n l H D|n l H D|n w k l z H Hw W Hk Hl D Hz Fz]; cbn [arg_text].
  - now apply s_lit_ok.
  - destruct (s_lit_ok [] nonul_nil) as (e & -> & Re & _). cbn [rbind].
    destruct (toString_ok n e Re) as (r & E & R); [unfold BOUND; lia|]. exists r. split; [exact E|].
    destruct (Z.ltb_spec n 0); [lia|]. assert (l = dec n) as -> by (apply (decimal_unique n); [exact D|apply dec_decimal; unfold BOUND; lia]).
    split; [exact R|]. eapply srep_buf; eauto. apply dec_decimal. unfold BOUND. lia.
  - destruct (s_lit_ok [] nonul_nil) as (e & -> & Re & _). cbn [rbind].
    destruct (toString_ok n e Re) as (r & E & R); [unfold BOUND; lia|]. exists r. split; [exact E|].
    destruct (Z.ltb_spec n 0); [|lia]. assert (l = dec (- n)) as -> by (apply (decimal_unique (- n)); [exact D|apply dec_decimal; unfold BOUND; lia]).
    split; [exact R|]. eapply srep_buf; eauto. discriminate.
  - assert (N : nonul (100 :: w)) by (apply nonul_cons; split; [lia|eapply writes_nonul; eauto]).
    destruct (s_lit_ok (100 :: w) N) as (e & -> & Re & _). cbn [rbind].
    destruct (toString_pad_ok n e w k) as (r & E & R); auto. exists r. split; [exact E|].
    assert (l = dec n) as -> by (apply (decimal_unique n); [exact D|apply dec_decimal; unfold BOUND; lia]).
    rewrite (all_eq 48 z Fz). replace (length z) with (Z.to_nat (k - zlen (dec n))) by (unfold zlen in *; lia).
    split; [exact R|]. eapply srep_buf; eauto. intros K. apply app_eq_nil in K as [_ K].
    destruct (dec_decimal n) as (A & _); [unfold BOUND; lia|]. contradiction.
Qed.

(** ** Pieces *)
Lemma cut_ok idx w f : Forall (fun c => 48 <= c <= 57) idx -> ~ In 58 (lead 44 w) -> (w = None -> ~ In 44 (lead 58 f)) ->
  cut (idx ++ lead 44 w ++ lead 58 f) = Some (idx, w, f).
Proof.
  intros Fi Hw Hf. assert (I44 : ~ In 44 idx) by (apply digits_not_in; [exact Fi|lia]).
  assert (I58 : ~ In 58 idx) by (apply digits_not_in; [exact Fi|lia]).
  unfold cut. destruct w as [w|]; cbn [lead app] in *.
  - rewrite (strchr_at 44 idx _ I44). destruct f as [f|]; cbn [lead app].
    + assert (E : strchr 58 (idx ++ 44 :: w ++ 58 :: f) = Some (idx ++ 44 :: w, f)).
      { replace (idx ++ 44 :: w ++ 58 :: f) with ((idx ++ 44 :: w) ++ 58 :: f) by (rewrite <- app_assoc; reflexivity).
        apply strchr_at. intros H. apply in_app_or in H as [H|H]; auto. }
      rewrite E. rewrite app_length. cbn [length]. destruct (Nat.ltb_spec (length idx) (length idx + S (length w))); [|lia].
      rewrite strchr_at; [reflexivity|]. intros K. apply Hw. now right.
    + rewrite app_nil_r. assert (strchr 58 (idx ++ 44 :: w) = None) as ->; [|reflexivity].
      apply strchr_none. intros H. apply in_app_or in H as [H|H]; auto.
  - specialize (Hf eq_refl). destruct f as [f|]; cbn [lead] in *.
    + assert (strchr 44 (idx ++ 58 :: f) = None) as ->.
      { apply strchr_none. intros H. apply in_app_or in H as [H|H]; auto. }
      rewrite (strchr_at 58 idx f I58). reflexivity.
    + rewrite app_nil_r. apply strchr_none in I44, I58. rewrite I44, I58. reflexivity.
Qed.

Lemma tl_lead f : tl (lead 58 f) = match f with Some f => f | None => [] end.
Proof. destruct f; reflexivity. Qed.

(** One placeholder. *)
Lemma place_ok args input a c d acc m idx w f r :
  srep input (a ++ ptext (PArg idx w f) ++ d) -> srep acc m -> puts args (PArg idx w f) r ->
  c = idx ++ lead 44 w ++ lead 58 f ->
  ~ In 125 c /\ exists acc', placeholder input (zlen a) c args acc = Ok acc' /\ srep acc' (m ++ r).
Proof.
  intros R Ra P ->. remember (PArg idx w f) as p eqn:Ep.
  destruct P as [l Hl|idx' i f' a' t Hn Ha H125 H44 Hs|idx' i w' n f' a' t r Hn Ha Hw H125 Hs Hf|idx' i w' f' Hn Hi H58 H125 H44];
    [discriminate Ep|injection Ep as -> <- ->|injection Ep as -> <- ->|injection Ep as -> -> ->]; pose proof (number_digits _ _ Hn) as Fi.
  - cbn [lead app] in *. split.
    { intros H. apply in_app_or in H as [H|H]; [|contradiction]. revert H. apply digits_not_in; [exact Fi|lia]. }
    unfold placeholder. pose proof (cut_ok idx None f Fi ltac:(cbn; tauto) (fun _ => H44)) as K. cbn [lead app] in K. rewrite K.
    destruct (of_chars_ok idx (digits_nonul _ Fi)) as (n & -> & Rn). cbn [rbind].
    destruct (number_parse idx i n Hn Rn) as (-> & Ei & Hi0). cbn [rbind]. rewrite Ei.
    assert (Hlt : i < Z.of_nat (length args)).
    { assert (Z.to_nat i < length args)%nat by (apply nth_error_Some; congruence). lia. }
    destruct (Z.leb_spec 0 i); [|lia]. destruct (Z.ltb_spec i (Z.of_nat (length args))); [|lia]. cbn [andb].
    rewrite Ha. rewrite tl_lead in Hs. destruct (shown_ok _ _ _ Hs) as (rt & -> & Rt & Bt). cbn [rbind Z.ltb Z.compare].
    now apply append_ok.
  - cbn [lead app] in *. pose proof (number_digits _ _ Hw) as Fw.
    assert (W58 : ~ In 58 (lead 44 (Some w'))).
    { intros [H|H]; [lia|]. revert H. apply digits_not_in; [exact Fw|lia]. }
    split.
    { intros H. apply in_app_or in H as [H|[H|H]]; [|lia|].
      - revert H. apply digits_not_in; [exact Fi|lia].
      - apply in_app_or in H as [H|H]; [|contradiction]. revert H. apply digits_not_in; [exact Fw|lia]. }
    unfold placeholder. pose proof (cut_ok idx (Some w') f Fi W58 ltac:(discriminate)) as K. cbn [lead app] in K. rewrite K.
    destruct (of_chars_ok idx (digits_nonul _ Fi)) as (n0 & -> & Rn). cbn [rbind].
    destruct (number_parse idx i n0 Hn Rn) as (-> & Ei & Hi0). cbn [rbind]. rewrite Ei.
    destruct (of_chars_ok w' (digits_nonul _ Fw)) as (n1 & -> & Rn1). cbn [rbind].
    destruct (number_parse w' n n1 Hw Rn1) as (-> & Ew & Hw0). cbn [rbind]. rewrite Ew.
    assert (Hlt : i < Z.of_nat (length args)).
    { assert (Z.to_nat i < length args)%nat by (apply nth_error_Some; congruence). lia. }
    destruct (Z.leb_spec 0 i); [|lia]. destruct (Z.ltb_spec i (Z.of_nat (length args))); [|lia]. cbn [andb].
    rewrite Ha. rewrite tl_lead in Hs. destruct (shown_ok _ _ _ Hs) as (rt & -> & Rt & Bt). cbn [rbind].
    rewrite (sr_count _ _ Rt). destruct Hf as (z & -> & Fz & Lz). rewrite (all_eq 32 z Fz).
    replace (length z) with (Z.to_nat (n - zlen t)) by (unfold zlen in *; lia).
    destruct (Z.ltb_spec 0 n).
    + destruct (add_spaces_ok (Z.to_nat (n - zlen t)) acc m Ra) as (acc1 & -> & R1). cbn [rbind].
      rewrite app_assoc. now apply append_ok.
    + replace (Z.to_nat (n - zlen t)) with O by (pose proof (zlen_nonneg t); lia). cbn [rbind repeat app]. now apply append_ok.
  - split.
    { rewrite in_app_iff. intros [H|H]; [|contradiction]. revert H. apply digits_not_in; [exact Fi|lia]. }
    unfold placeholder. rewrite (cut_ok idx w f Fi H58 H44).
    destruct (of_chars_ok idx (digits_nonul _ Fi)) as (n & -> & Rn). cbn [rbind].
    destruct (number_parse idx i n Hn Rn) as (-> & Ei & Hi0). cbn [rbind]. rewrite Ei.
    destruct (Z.leb_spec 0 i); [|lia]. destruct (Z.ltb_spec i (Z.of_nat (length args))); [lia|]. cbn [andb].
    assert (N : nonul (lead 44 w)).
    { pose proof (sr_nonul _ _ R) as N. cbn [ptext] in N. rewrite !nonul_app in N. tauto. }
    destruct w as [w|].
    + apply nonul_cons in N as [_ N]. destruct (of_chars_ok w N) as (n1 & -> & Rn1). cbn [rbind].
      destruct (z_parse_total n1 w Rn1) as (q & ->). cbn [rbind].
      destruct (getSub_ok input a _ d R) as (r & Er & Rr & Br).
      replace (zlen (ptext (PArg idx (Some w) f))) with (zlen (idx ++ lead 44 (Some w) ++ lead 58 f) + 2) in Er
        by (cbn [ptext]; rewrite !zlen_app; change (zlen [123]) with 1; change (zlen [125]) with 1; lia).
      rewrite Er. cbn [rbind]. now apply append_ok.
    + cbn [rbind]. destruct (getSub_ok input a _ d R) as (r & Er & Rr & Br).
      replace (zlen (ptext (PArg idx None f))) with (zlen (idx ++ lead 44 None ++ lead 58 f) + 2) in Er
        by (cbn [ptext]; rewrite !zlen_app; change (zlen [123]) with 1; change (zlen [125]) with 1; lia).
      rewrite Er. cbn [rbind]. now apply append_ok.
Qed.

(** All pieces. *)
Lemma finish_ok input a b acc m : srep input (a ++ b) -> srep acc m ->
  exists r, (do t <- s_getSubstring input (zlen a) (scount input - zlen a); s_append acc t) = Ok r /\ srep r (m ++ b).
Proof.
  intros R Ra. rewrite (sr_count _ _ R). rewrite zlen_app. replace (zlen a + zlen b - zlen a) with (zlen b) by lia.
  pose proof R as R'. rewrite <- (app_nil_r b) in R'. destruct (getSub_ok input a b [] R') as (t & -> & Rt & Bt). cbn [rbind].
  now apply append_ok.
Qed.

(** [x]: text without brace, not yet copied. *)
Lemma loop_ok args input ps rs : Forall2 (puts args) ps rs -> forall x tail a acc m fuel,
  ~ In 123 x -> no_place tail ->
  srep input (a ++ x ++ concat (List.map ptext ps) ++ tail) -> srep acc m ->
  (length (x ++ concat (List.map ptext ps) ++ tail) < fuel)%nat ->
  exists r, fmt_loop fuel input (zlen a) (x ++ concat (List.map ptext ps) ++ tail) args acc = Ok r /\
    srep r (m ++ x ++ concat rs ++ tail).
Proof.
  induction 1 as [|p r ps rs P F IH]; intros x tail a acc m fuel Hx Ht R Ra Hf.
  - cbn [List.map concat app] in *. destruct fuel as [|fuel]; [lia|]. cbn [fmt_loop].
    assert (N : no_place (x ++ tail)).
    { intros u v E K. destruct (In_dec Z.eq_dec 125 v) as [K'|]; [|contradiction].
      destruct (app_eq_app _ _ _ _ E) as (l2 & [[E1 E2]|[E1 E2]]).
      - apply Hx. rewrite E1. destruct l2 as [|c l2]; [cbn in E2; exfalso; exact (Ht [] v (eq_sym E2) K)|].
        injection E2 as <- _. apply in_or_app. right. now left.
      - exact (Ht l2 v E2 K). }
    destruct (strchr 123 (x ++ tail)) as [[u v]|] eqn:E1; [|now apply finish_ok].
    apply strchr_some in E1 as [E1 _]. specialize (N u v E1). apply strchr_none in N. rewrite N. now apply finish_ok.
  - destruct p as [l|idx w f].
    + inversion P as [l' Hl E1 E2| | |]; subst. cbn [List.map concat ptext] in *.
      replace (x ++ (r ++ concat (List.map ptext ps)) ++ tail) with ((x ++ r) ++ concat (List.map ptext ps) ++ tail) in *
        by (rewrite !app_assoc; reflexivity).
      destruct (IH (x ++ r) tail a acc m fuel) as (q & E & Rq); auto.
      { intros H. apply in_app_or in H as [H|H]; auto. }
      exists q. split; [exact E|]. rewrite <- !app_assoc in *. exact Rq.
    + destruct fuel as [|fuel]; [lia|]. cbn [List.map concat] in *.
      set (c := idx ++ lead 44 w ++ lead 58 f).
      set (rest := concat (List.map ptext ps) ++ tail) in *.
      assert (Ep : ptext (PArg idx w f) = 123 :: c ++ [125]) by (unfold c; cbn [ptext app]; rewrite <- !app_assoc; reflexivity).
      assert (Eall : x ++ (ptext (PArg idx w f) ++ concat (List.map ptext ps)) ++ tail = x ++ 123 :: c ++ 125 :: rest).
      { rewrite Ep. unfold rest. cbn [app]. rewrite <- !app_assoc. reflexivity. }
      rewrite Eall in *.
      assert (R1 : srep input ((a ++ x) ++ ptext (PArg idx w f) ++ rest)).
      { rewrite Ep. cbn [app]. rewrite <- !app_assoc. cbn [app]. exact R. }
      cbn [fmt_loop]. rewrite (strchr_at 123 x _ Hx).
      destruct (getSub_ok input a x (123 :: c ++ 125 :: rest) R) as (t & Et & Rt & Bt).
      destruct (append_ok acc m t x Ra Rt Bt) as (acc1 & E1 & R1').
      destruct (place_ok args input (a ++ x) c rest acc1 (m ++ x) idx w f r R1 R1' P eq_refl) as (H125 & acc2 & E2 & R2).
      rewrite (strchr_at 125 c _ H125). rewrite Et. cbn [rbind]. rewrite E1. cbn [rbind].
      rewrite zlen_app in E2. rewrite E2. cbn [rbind].
      replace (zlen a + zlen x + zlen c + 2) with (zlen (a ++ x ++ ptext (PArg idx w f)))
        by (rewrite Ep, !zlen_app; change (123 :: c ++ [125]) with ([123] ++ c ++ [125]); rewrite !zlen_app; change (zlen [123]) with 1; change (zlen [125]) with 1; lia).
      destruct (IH [] tail (a ++ x ++ ptext (PArg idx w f)) acc2 ((m ++ x) ++ r) fuel) as (q & Eq & Rq); auto.
      { cbn [app]. rewrite <- !app_assoc in *. exact R1. }
      { cbn [app]. fold rest. rewrite app_length in Hf. cbn [length] in Hf. rewrite app_length in Hf. cbn [length] in Hf. lia. }
      exists q. split; [exact Eq|]. cbn [app concat] in *. rewrite <- !app_assoc in *. exact Rq.
Qed.
