(** What the serialiser writes is in the grammar. *)
From Coq Require Import List ZArith Bool Lia.
From Verif Require Import Base FloatModel FloatProofs FloatBits FloatInt StringModel StringProofs
  IntegerModel IntegerSpec IntegerProofs JsonModel JsonSpec JsonProofs JsonGram JsonNum.
Import ListNotations.
Open Scope Z_scope.

(** Induction over values. *)
Section Ind.
  Variable P : jval -> Prop.
  Hypothesis HU : P JU.
  Hypothesis HN : P JN.
  Hypothesis HB : forall b, P (JB b).
  Hypothesis HI : forall z, P (JI z).
  Hypothesis HF : forall f, P (JF f).
  Hypothesis HS : forall s, P (JS s).
  Hypothesis HA : forall l, Forall P l -> P (JA l).
  Hypothesis HO : forall l, Forall (fun kv => P (snd kv)) l -> P (JO l).
  Fixpoint jval_all (v : jval) : P v :=
    match v with
    | JU => HU | JN => HN | JB b => HB b | JI z => HI z | JF f => HF f | JS s => HS s
    | JA l => HA l ((fix go (l : list jval) : Forall P l :=
        match l with [] => Forall_nil _ | x :: r => Forall_cons x (jval_all x) (go r) end) l)
    | JO l => HO l ((fix go (l : list (list Z * jval)) : Forall (fun kv => P (snd kv)) l :=
        match l with [] => Forall_nil _ | x :: r => Forall_cons x (jval_all (snd x)) (go r) end) l)
    end.
End Ind.

(** The loops of the serialiser, named. *)
Section Loops.
Variables (fm : bool) (id : nat).
Fixpoint s_items (first : bool) (l : list jval) : res (list Z) :=
  match l with
  | [] => Ok []
  | x :: r =>
    do a <- ser fm id x; do b <- s_items false r;
    Ok ((if first then [] else [44]) ++ a ++ b)
  end.
Fixpoint s_fields (first : bool) (l : list (list Z * jval)) : res (list Z) :=
  match l with
  | [] => Ok []
  | (k, x) :: r =>
    do a <- ser fm (S id) x; do b <- s_fields false r;
    Ok ((if fm then 10 :: repeat 9 (S id) else []) ++ (if first then [] else [44])
        ++ [34] ++ k ++ [34; 58] ++ a ++ b)
  end.
End Loops.
Lemma ser_A fm id l : ser fm id (JA l) = do t <- s_items fm id true l; Ok ([91] ++ t ++ [93]).
Proof. reflexivity. Qed.
Lemma ser_O fm id l : ser fm id (JO l) =
  do t <- s_fields fm id true l; Ok ([123] ++ t ++ (if fm then 10 :: repeat 9 id else []) ++ [125]).
Proof. reflexivity. Qed.

Lemma jsonable_A l : jsonable (JA l) <-> Forall jsonable l.
Proof.
  cbn [jsonable]. induction l as [|x l IH]; [split; auto|]. rewrite Forall_cons_iff. tauto.
Qed.
Lemma jsonable_O l : jsonable (JO l) <->
  NoDup (List.map fst l) /\ Forall (fun kv => plain_str (fst kv) /\ jsonable (snd kv)) l.
Proof.
  cbn [jsonable]. assert (H : forall l, (fix all (l : list (list Z * jval)) : Prop :=
       match l with [] => True | (k, x) :: r => plain_str k /\ jsonable x /\ all r end) l <->
       Forall (fun kv => plain_str (fst kv) /\ jsonable (snd kv)) l).
  { clear l. induction l as [|[k x] l IH]; [split; auto|]. rewrite Forall_cons_iff. cbn. tauto. }
  rewrite H. reflexivity.
Qed.

Lemma plain_body s : plain_str s -> body_ok s.
Proof.
  intros F. unfold plain_str in F. rewrite Forall_forall in F. repeat split.
  - intros H. now destruct (F _ H).
  - intros H. destruct (F _ H) as (_ & K & _). congruence.
  - intros a b E. exfalso. destruct (F 34) as (_ & _ & K & _); [|congruence]. rewrite E. apply in_or_app. right. now left.
  - intros a E. destruct (F 92) as (_ & _ & _ & K); [|congruence]. rewrite E. apply in_or_app. right. now left.
Qed.

(** Words made of digits, sign and point. *)
Definition numchar (c : Z) : Prop := 45 <= c <= 57 /\ c <> 47.
Lemma num_word t : t <> [] -> zlen t < 1024 -> Forall numchar t -> word_ok t.
Proof.
  intros H1 H2 F. unfold word_ok. split; [exact H1|]. split; [exact H2|]. split.
  - eapply Forall_impl; [|exact F]. unfold numchar. cbn. intros c Hc. lia.
  - destruct t as [|c t]; [congruence|]. inversion F as [|? ? Hc F']; subst. unfold numchar in Hc. cbn [hd app].
    split; [lia|]. split; [lia|]. split; [lia|]. split; intros r E; injection E as -> _; lia.
Qed.
Lemma numchar_92 t : Forall numchar t -> ~ In 92 t.
Proof. intros F H. rewrite Forall_forall in F. specialize (F _ H). unfold numchar in F. lia. Qed.
Lemma numchar_digits l : Forall (fun c => 48 <= c <= 57) l -> Forall numchar l.
Proof. apply Forall_impl. unfold numchar. intros; lia. Qed.
Lemma numchar_signed s l : Forall numchar l -> Forall numchar (signed s l).
Proof. intros F. unfold signed. destruct s; cbn [app]; auto. constructor; auto. unfold numchar. lia. Qed.

Lemma blank_ws n : ws (repeat 9 n).
Proof. induction n; cbn; constructor; auto. Qed.
Lemma sep_aft (fm : bool) n : aft (if fm then 10 :: repeat 9 n else []).
Proof.
  destruct fm; split; cbn [hd]; try lia; constructor. apply blank_ws.
Qed.
Lemma sep_92 (fm : bool) n : ~ In 92 (if fm then 10 :: repeat 9 n else []).
Proof. destruct fm; cbn; [|tauto]. intros [H|H]; [lia|]. apply repeat_spec in H. lia. Qed.

(** ** Objects with distinct names *)
Lemma leqb_neq a b : a <> b -> leqb a b = false.
Proof. unfold leqb. destruct (list_eq_dec _ _ _); congruence. Qed.
Lemma upsert_new k v l : ~ In k (List.map fst l) -> upsert k v l = l ++ [(k, v)].
Proof.
  induction l as [|[k' v'] l IH]; intros H; cbn; [reflexivity|]. rewrite leqb_neq.
  - rewrite IH; [reflexivity|]. intros K. apply H. now right.
  - intros ->. apply H. now left.
Qed.
Lemma fields_distinct l : NoDup (List.map fst l) -> fields_of l = l.
Proof.
  intros N. rewrite <- fields_fold. assert (H : forall acc, NoDup (List.map fst (acc ++ l)) ->
    fold_left (fun acc kv => upsert (fst kv) (snd kv) acc) l acc = acc ++ l).
  { clear N. induction l as [|[k v] l IH]; intros acc N; cbn [fold_left fst snd]; [now rewrite app_nil_r|].
    rewrite upsert_new.
    - rewrite IH; [now rewrite <- app_assoc|]. now rewrite <- app_assoc.
    - rewrite map_app in N. cbn in N. apply NoDup_remove_2 in N. intros K. apply N. apply in_or_app. now left. }
  apply (H [] N).
Qed.

Section Round.
  Variable other : list Z -> option f64.
  Notation num := (fparse other).

  (** The text of a value: in the grammar, of an equal value, without backslash. *)
  Definition good (v : jval) : Prop := jsonable v -> forall fm id, exists t v',
    ser fm id v = Ok t /\ jtext num t v' /\ same v v' /\ ~ In 92 t.

  Lemma items_good fm id l : Forall good l -> Forall jsonable l -> l <> [] ->
    exists t l', s_items fm id true l = Ok t /\ jitems num t l' /\ Forall2 same l l' /\ ~ In 92 t.
  Proof.
    assert (Aux : forall l x, good x -> jsonable x -> Forall good l -> Forall jsonable l ->
      exists a b l', ser fm id x = Ok a /\ s_items fm id false l = Ok b /\ jitems num (a ++ b) l' /\
        Forall2 same (x :: l) l' /\ ~ In 92 (a ++ b)).
    { clear l. induction l as [|y l IH]; intros x Gx Jx Gl Jl.
      - destruct (Gx Jx fm id) as (a & v' & E & T & Q & N). exists a, [], [v'].
        split; [exact E|]. split; [reflexivity|]. split; [|split; [auto|now rewrite app_nil_r]].
        apply ji_one; [exact T|]. split; [constructor|cbn; lia].
      - destruct (Gx Jx fm id) as (a & v' & E & T & Q & N).
        inversion Gl as [|? ? Gy Gl']; subst. inversion Jl as [|? ? Jy Jl']; subst.
        destruct (IH y Gy Jy Gl' Jl') as (a2 & b2 & l' & E2 & E3 & I & F & N2).
        exists a, (44 :: a2 ++ b2), (v' :: l'). split; [exact E|]. split.
        { cbn [s_items]. rewrite E2. cbn [rbind]. rewrite E3. reflexivity. }
        split; [|split; [now constructor|]].
        + apply (ji_cons num a v' [] [] (a2 ++ b2) l'); auto; [split; [constructor|cbn; lia]|constructor].
        + intros H. apply in_app_or in H as [H|[H|H]]; [auto|lia|auto]. }
    intros G J H. destruct l as [|x l]; [congruence|]. inversion G; subst. inversion J; subst.
    destruct (Aux l x) as (a & b & l' & E & E2 & I & F & N); auto.
    exists (a ++ b), l'. cbn [s_items]. rewrite E. cbn [rbind]. rewrite E2. auto.
  Qed.

  Lemma fields_good fm id l : Forall (fun kv => good (snd kv)) l ->
    Forall (fun kv => plain_str (fst kv) /\ jsonable (snd kv)) l -> l <> [] ->
    exists t l', s_fields fm id true l = Ok ((if fm then 10 :: repeat 9 (S id) else []) ++ t) /\
      jfields num (t ++ (if fm then 10 :: repeat 9 id else [])) l' /\
      Forall2 (fun a b => fst a = fst b /\ same (snd a) (snd b)) l l' /\ ~ In 92 t.
  Proof.
    set (sep := if fm then 10 :: repeat 9 (S id) else []). set (fin := if fm then 10 :: repeat 9 id else []).
    assert (Asep : aft sep) by apply sep_aft. assert (Afin : aft fin) by apply sep_aft.
    assert (Nsep : ~ In 92 sep) by apply sep_92.
    assert (Aux : forall l k x, good x -> plain_str k -> jsonable x -> Forall (fun kv => good (snd kv)) l ->
      Forall (fun kv => plain_str (fst kv) /\ jsonable (snd kv)) l ->
      exists a b l', ser fm (S id) x = Ok a /\ s_fields fm id false l = Ok b /\
        jfields num (34 :: k ++ 34 :: 58 :: a ++ b ++ fin) l' /\
        Forall2 (fun a b => fst a = fst b /\ same (snd a) (snd b)) ((k, x) :: l) l' /\
        ~ In 92 (34 :: k ++ 34 :: 58 :: a ++ b)).
    { clear l. induction l as [|[k2 y] l IH]; intros k x Gx Pk Jx Gl Jl;
        destruct (Gx Jx fm (S id)) as (a & v' & E & T & Q & N);
        assert (Nk : ~ In 92 k) by (intros H; unfold plain_str in Pk; rewrite Forall_forall in Pk; destruct (Pk _ H) as (_ & _ & _ & K); congruence).
      - exists a, [], [(k, v')]. split; [exact E|]. split; [reflexivity|]. split; [|split; [auto|]].
        + apply (jf_one num k [] [] a v' fin); auto using plain_body; constructor.
        + rewrite app_nil_r. intros [H|H]; [lia|]. apply in_app_or in H as [H|[H|[H|H]]]; [auto|lia|lia|auto].
      - inversion Gl as [|? ? Gy Gl']; subst. inversion Jl as [|? ? [Pk2 Jy] Jl']; subst. cbn [fst snd] in *.
        destruct (IH k2 y Gy Pk2 Jy Gl' Jl') as (a2 & b2 & l' & E2 & E3 & I & F & N2).
        exists a, (sep ++ 44 :: 34 :: k2 ++ 34 :: 58 :: a2 ++ b2), ((k, v') :: l'). split; [exact E|]. split.
        { cbn [s_fields]. rewrite E2. cbn [rbind]. rewrite E3. cbn [rbind]. fold sep.
          cbn [app]. reflexivity. }
        split; [|split; [now constructor|]].
        + replace ((sep ++ 44 :: 34 :: k2 ++ 34 :: 58 :: a2 ++ b2) ++ fin)
            with (sep ++ 44 :: 34 :: k2 ++ 34 :: 58 :: a2 ++ b2 ++ fin)
            by (rewrite <- app_assoc; cbn [app]; rewrite <- app_assoc; cbn [app]; now rewrite <- app_assoc).
          apply (jf_cons num k [] [] a v' sep [] (34 :: k2 ++ 34 :: 58 :: a2 ++ b2 ++ fin) l');
            auto using plain_body; constructor.
        + intros [H|H]; [lia|]. apply in_app_or in H as [H|[H|[H|H]]]; [auto|lia|lia|].
          apply in_app_or in H as [H|H]; [auto|]. apply in_app_or in H as [H|[H|H]]; [auto|lia|auto]. }
    intros G J H. destruct l as [|[k x] l]; [congruence|].
    inversion G as [|? ? Gx Gl]; subst. inversion J as [|? ? [Pk Jx] Jl]; subst. cbn [fst snd] in *.
    destruct (Aux l k x) as (a & b & l' & E & E2 & I & F & N); auto.
    exists (34 :: k ++ 34 :: 58 :: a ++ b), l'. split.
    { cbn [s_fields]. rewrite E. cbn [rbind]. rewrite E2. cbn [rbind]. fold sep. reflexivity. }
    split; [|auto].
    replace ((34 :: k ++ 34 :: 58 :: a ++ b) ++ fin) with (34 :: k ++ 34 :: 58 :: a ++ b ++ fin); auto.
    cbn [app]. rewrite <- app_assoc. cbn [app]. now rewrite <- app_assoc.
  Qed.

  Lemma all_good v : good v.
  Proof.
    induction v as [| |b|z|f|s|l IH|l IH] using jval_all; intros J fm id; cbn [jsonable] in J; try contradiction.
    - exists (if b then [116; 114; 117; 101] else [102; 97; 108; 115; 101]), (JB b).
      destruct b; cbn [ser]; (split; [reflexivity|]; split; [constructor|]; split; [constructor|]; cbn; lia).
    - exists (signed (z <? 0) (dec (Z.abs z))), (JF (of_int z)). cbn [ser].
      destruct (dec_decimal (Z.abs z)) as (H1 & H2 & _); [unfold BOUND; lia|].
      assert (F : Forall numchar (signed (z <? 0) (dec (Z.abs z))))
        by (apply numchar_signed, numchar_digits; eapply writes_digit; eauto).
      split; [apply itext_ok; unfold BOUND; lia|]. split; [|split; [constructor|now apply numchar_92]].
      apply jt_num; [|now apply fparse_itext]. apply num_word; [| |exact F].
      + intros E. unfold signed in E. destruct (z <? 0); [discriminate|]. cbn [app] in E. contradiction.
      + unfold zlen, signed. rewrite app_length. pose proof (dec_len (Z.abs z)). destruct (z <? 0); cbn [length]; lia.
    - destruct J as (z & Hz & ->). destruct (Z.eqb_spec z 0) as [->|Hz0].
      + exists (ftext (S754_zero false)), (JF (S754_zero false)). split; [reflexivity|]. split; [|split].
        * apply jt_num; [|reflexivity]. apply num_word; [discriminate|cbn; lia|]. repeat constructor; lia.
        * constructor.
        * cbn. lia.
      + assert (exists s t, z = (if s : bool then Zneg t else Zpos t) /\ Zpos t < 2 ^ 24) as (s & t & -> & Ht).
        { destruct z as [|p|p]; [lia|exists false, p|exists true, p]; split; auto. }
        rewrite fdiv_64 by lia. exists (ftext (dyad s t 6)), (JF (dyad s t 6)). cbn [ser]. split; [reflexivity|].
        destruct (udec_ok (Zpos t * 15625 / 1000000)) as (W & N & L); [apply Z.div_pos; lia|].
        assert (F : Forall numchar (ftext (dyad s t 6))).
        { rewrite ftext_64 by lia. apply numchar_signed. apply Forall_app. split.
          - apply numchar_digits. eapply writes_digit; eauto.
          - cbn [app]. constructor; [unfold numchar; lia|]. apply numchar_digits, kdec_digit. }
        split; [|split; [constructor|now apply numchar_92]].
        apply jt_num; [|now apply fparse_ftext]. apply num_word; [| |exact F].
        * rewrite ftext_64 by lia. unfold signed. intros E. destruct s; [discriminate|]. cbn [app] in E.
          apply app_eq_nil in E as [E _]. contradiction.
        * rewrite ftext_64 by lia. unfold zlen, signed. rewrite !app_length, kdec_len.
          assert (Z.log2 (Zpos t * 15625 / 1000000) < 64).
          { destruct (Z.le_gt_cases (Zpos t * 15625 / 1000000) 0) as [B|B]; [rewrite Z.log2_nonpos by lia; lia|].
            apply Z.log2_lt_pow2; [lia|]. apply Z.div_lt_upper_bound; lia. }
          pose proof (Z.log2_nonneg (Zpos t * 15625 / 1000000)).
          destruct s; cbn [length]; lia.
    - exists (34 :: s ++ [34]), (JS s). split; [reflexivity|]. split; [apply jt_str, plain_body, J|]. split; [constructor|].
      intros [H|H]; [lia|]. apply in_app_or in H as [H|[H|[]]]; [|lia].
      unfold plain_str in J. rewrite Forall_forall in J. destruct (J _ H) as (_ & _ & _ & K). congruence.
    - change (jsonable (JA l)) in J. apply jsonable_A in J. rewrite ser_A. destruct l as [|x l].
      + exists [91; 93], (JA []). split; [reflexivity|]. split; [apply (jt_arr0 num []); constructor|]. split; [constructor; constructor|cbn; lia].
      + destruct (items_good fm id (x :: l) IH J) as (t & l' & -> & I & F & N); [discriminate|].
        exists (91 :: t ++ [93]), (JA l'). cbn [rbind app]. split; [reflexivity|].
        split; [apply (jt_arr num [] t l'); [constructor|exact I]|]. split; [now constructor|].
        intros [H|H]; [lia|]. apply in_app_or in H as [H|[H|[]]]; [auto|lia].
    - change (jsonable (JO l)) in J. apply jsonable_O in J as [ND J]. rewrite ser_O. destruct l as [|x l].
      + exists (123 :: (if fm then 10 :: repeat 9 id else []) ++ [125]), (JO []). split; [reflexivity|].
        split; [apply jt_obj0; apply sep_aft|]. split; [constructor; constructor|].
        intros [H|H]; [lia|]. apply in_app_or in H as [H|[H|[]]]; [exact (sep_92 fm id H)|lia].
      + destruct (fields_good fm id (x :: l) IH J) as (t & l' & -> & I & F & N); [discriminate|].
        set (sep := if fm then 10 :: repeat 9 (S id) else []) in *. set (fin := if fm then 10 :: repeat 9 id else []) in *.
        assert (EN : List.map fst (x :: l) = List.map fst l').
        { clear - F. revert F. generalize (x :: l). intros m F.
          induction F as [|a b m m' [H _] F IH]; cbn; [reflexivity|]. now rewrite H, IH. }
        exists (123 :: sep ++ (t ++ fin) ++ [125]), (JO l'). cbn [rbind app]. split.
        { f_equal. rewrite <- !app_assoc. reflexivity. }
        split; [|split; [now constructor|]].
        * rewrite <- (fields_distinct l') by (rewrite <- EN; exact ND).
          apply jt_obj; [apply sep_aft|exact I].
        * intros [H|H]; [lia|]. apply in_app_or in H as [H|H]; [exact (sep_92 fm (S id) H)|].
          apply in_app_or in H as [H|[H|[]]]; [|lia]. apply in_app_or in H as [H|H]; [auto|exact (sep_92 fm id H)].
  Qed.
End Round.

(** ** The script-level functions *)
Lemma unesc_plain l : forall f, (length l < f)%nat -> ~ In 92 l -> unesc f l = l.
Proof.
  induction l as [|c l IH]; intros [|f] Hf H; cbn [length] in Hf; try lia; [reflexivity|].
  cbn [unesc]. destruct l as [|e l]; [reflexivity|].
  destruct (Z.eqb_spec c 92) as [->|]; [destruct H; now left|]. f_equal. apply IH; [lia|]. intros K. apply H. now right.
Qed.
Lemma json_deserialize_eq other s u t : s_unescape s = Ok u -> srep u t ->
  json_deserialize other s = j_parse (fparse other) t.
Proof. intros E R. unfold json_deserialize. rewrite E. cbn [rbind]. rewrite (cstr_cchars u t R). reflexivity. Qed.
Lemma json_deserialize_plain other s t : srep s t -> ~ In 92 t -> json_deserialize other s = j_parse (fparse other) t.
Proof.
  intros R H. destruct (unescape_ok s t R) as (u & E & Ru). rewrite unesc_plain in Ru by (auto; lia).
  eapply json_deserialize_eq; eauto.
Qed.
Lemma json_deserialize_total other s l : srep s l ->
  exists u t, s_unescape s = Ok u /\ srep u t /\ json_deserialize other s = j_parse (fparse other) t.
Proof.
  intros R. destruct (unescape_ok s l R) as (u & E & Ru). exists u, (unesc (S (length l)) l).
  split; auto. split; auto. eapply json_deserialize_eq; eauto.
Qed.
