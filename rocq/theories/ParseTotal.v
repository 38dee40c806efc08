(** Reading an expression ends, and where it leaves the text. *)
From Coq Require Import List ZArith Bool Lia String.
From Verif Require Import Base StringModel LexModel LexSpec LexProofs LexOps LexTok LexNum ParseModel ParseSpec ParseLex ParseProofs ParseMain ParseSound.
Import ListNotations.
Local Open Scope Z_scope.

Local Arguments ends_here : simpl never.
Local Arguments blanks : simpl never.
Local Arguments is_operator : simpl never.
Local Arguments is_keyword : simpl never.
Local Arguments is_pre_operation : simpl never.
Local Arguments is_post_operation : simpl never.
Local Arguments symbol_token : simpl never.
Local Arguments Nat.mul : simpl never.
Local Arguments Nat.add : simpl never.
Local Arguments adv : simpl never.

Definition suf (s u : ptr) : Prop := exists t, s = t ++ u.
Lemma suf_refl : forall s, suf s s. Proof. exists []. reflexivity. Qed.
Lemma suf_trans : forall a b c, suf a b -> suf b c -> suf a c.
Proof. intros a b c [x ->] [y ->]. exists (x ++ y). rewrite app_assoc. reflexivity. Qed.
Lemma suf_len : forall a b, suf a b -> (len b <= len a)%nat.
Proof. intros a b [x ->]. rewrite app_length. lia. Qed.
Lemma suf_adv : forall n s, suf s (adv n s).
Proof. intros. exists (firstn n s). unfold adv. rewrite firstn_skipn. reflexivity. Qed.
Lemma adv_shorter : forall s, hd0 s <> 0 -> (len (adv 1 s) < len s)%nat.
Proof. intros [|c s] H; [cbn in H; congruence|]. unfold adv. cbn. lia. Qed.
Lemma suf_spaces : forall s, suf s (skip_spaces s).
Proof. induction s as [|c s [t IH]]; [apply suf_refl|]. cbn. destruct (_ || _); [exists (c :: t); cbn; congruence | apply suf_refl]. Qed.
Lemma suf_line : forall s, suf s (skip_line s).
Proof. induction s as [|c s [t IH]]; [apply suf_refl|]. cbn. destruct (_ =? _); [apply suf_refl | exists (c :: t); cbn; congruence]. Qed.
Lemma suf_tbe : forall s l, suf s (fst (to_block_end s l)).
Proof. intros s l. destruct (to_block_end s l) as [r l'] eqn:E. apply tbe_spec in E. destruct E as (b & -> & _). exists b. reflexivity. Qed.

(** [Ok] with a rest of the text, an error, or, if [D], a read outside. *)
Definition good {A} (s : ptr) (rest : A -> ptr) (D : Prop) (x : res A) : Prop :=
  match x with Ok a => suf s (rest a) | Thr => True | UB => D | Loop => False end.
Definition plain {A} (x : res A) : Prop := match x with Ok _ | Thr => True | _ => False end.
Lemma good_bind : forall {A B} s s' (ra : A -> ptr) (rb : B -> ptr) (D D' : Prop) x f, good s' ra D' x -> suf s s' -> (D' -> D) ->
  (forall a, x = Ok a -> suf s' (ra a) -> good s rb D (f a)) -> good s rb D (rbind x f).
Proof. intros A B s s' ra rb D D' [a| | |] f H S I K; cbn in *; auto. Qed.
Lemma plain_bind : forall {A B} s (rb : B -> ptr) (D : Prop) (x : res A) f, plain x -> (forall a, x = Ok a -> good s rb D (f a)) -> good s rb D (rbind x f).
Proof. intros A B s rb D [a| | |] f H K; cbn in *; auto; contradiction. Qed.
Lemma bind_plain : forall {A B} (x : res A) (f : A -> res B), plain x -> (forall a, x = Ok a -> plain (f a)) -> plain (rbind x f).
Proof. intros A B [a| | |] f H K; cbn in *; auto. Qed.

Lemma head_suf : forall s l s2 l2 fin, head_of s l = Some (s2, l2, fin) -> suf s s2.
Proof.
  intros s l s2 l2 fin H. unfold head_of in H. pose proof (suf_spaces s) as S.
  destruct (two 47 47 (skip_spaces s)); [inversion H; subst; apply (suf_trans _ _ _ S (suf_line _))|].
  destruct (two 47 42 (skip_spaces s)).
  - inversion H; subst. apply (suf_trans _ _ _ S). apply (suf_trans _ _ _ (suf_adv 2 _)).
    pose proof (suf_tbe (adv 2 (skip_spaces s)) l) as T. destruct (two 42 47 _); [apply (suf_trans _ _ _ T (suf_adv 2 _)) | exact T].
  - destruct (two 42 47 (skip_spaces s)); [discriminate|]. inversion H; subst. exact S.
Qed.
Lemma loop_good : forall f s l, (len s < f)%nat -> good s fst False (blanks_loop f s l).
Proof.
  induction f as [|f IH]; intros s l L; [lia|]. rewrite loop_eq. destruct (head_of s l) as [[[s2 l2] fin]|] eqn:E; [|exact I].
  destruct (head_len _ _ _ _ _ E) as [L1 L2]. apply head_suf in E. cbv zeta.
  set (s3 := if hd0 s2 =? 13 then adv 1 s2 else s2).
  assert (S3 : suf s2 s3) by (unfold s3; destruct (hd0 s2 =? 13); [apply suf_adv | apply suf_refl]). assert (L3 := suf_len _ _ S3).
  assert (G : forall x, suf s x -> forall y l', (len y < f)%nat -> suf s y -> good s fst False (blanks_loop f y l')).
  { intros x SX y l' LY SY. specialize (IH y l' LY). destruct (blanks_loop f y l') as [[z w]| | |]; cbn in *; auto. apply (suf_trans _ _ _ SY IH). }
  assert (SS := suf_trans _ _ _ E S3).
  destruct (hd0 s3 =? 10) eqn:N.
  - destruct (hd10 _ N) as [r E3]. apply (G s3 SS); [rewrite E3 in *; unfold adv; cbn [skipn List.length] in *; lia | apply (suf_trans _ _ _ SS (suf_adv _ _))].
  - destruct fin; [exact SS|]. specialize (L2 eq_refl). apply (G s3 SS); [lia | exact SS].
Qed.
Lemma blanks_good : forall s, good s (fun u => u) False (blanks s).
Proof.
  intros s. unfold blanks, ignore_blanks. pose proof (loop_good (Datatypes.S (len s)) s 0 ltac:(lia)) as G.
  destruct (blanks_loop _ s 0) as [[u l]| | |]; cbn in *; auto.
Qed.
Lemma operator_plain : forall s, plain (is_operator s).
Proof. intros s. destruct (is_operator_spec s) as (r & -> & _). exact I. Qed.
Lemma keyword_plain : forall s, plain (is_keyword s).
Proof. intros s. destruct (is_keyword_spec s) as (r & -> & _). exact I. Qed.
Lemma post_plain : forall s, plain (is_post_operation s).
Proof. intros s. destruct (post_spec s) as (r & -> & _). exact I. Qed.
Lemma pre_plain : forall s, plain (is_pre_operation s).
Proof.
  intros s. unfold is_pre_operation. cbn [first_of].
  assert (T : forall a b, a <> 0 -> plain (all_of [is 0 a; is 1 b] s)).
  { intros a b N. destruct s as [|c s]; [rewrite two_nil; destruct (Z.eqb_spec 0 a); [congruence | exact I] | rewrite two_cons; exact I]. }
  assert (T2 : forall a b, a <> 0 -> plain (all_of [is 0 a; isnt 1 b] s)).
  { intros a b N. cbn [all_of is isnt]. rewrite peek0. cbn [rbind]. destruct (Z.eqb_spec (hd0 s) a) as [E|E]; [|exact I].
    destruct s as [|c s]; [cbn in E; congruence|]. rewrite peek_cons, peek0. cbn. destruct (_ =? _); exact I. }
  assert (IV : plain (is_dec_inc_invalid s)).
  { unfold is_dec_inc_invalid. apply bind_plain; [apply (T 45 43); lia|]. intros [] _; [exact I | apply (T 43 45); lia]. }
  apply bind_plain; [apply (T 45 45); lia|]. intros [] _; [exact I|].
  apply bind_plain; [apply (T 43 43); lia|]. intros [] _; [exact I|].
  apply bind_plain; [exact IV|]. intros [] _; [exact I|].
  apply bind_plain; [apply (T2 33 61); lia|]. intros [] _; [exact I|].
  apply bind_plain; [destruct (word_op_spec (bytes "typeof") s) as (b & -> & _); [cbn; intuition lia | exact I]|]. intros [] _; [exact I|].
  apply bind_plain; [apply (T2 43 43); lia|]. intros [] _; [exact I|].
  apply bind_plain; [apply (T2 45 45); lia|]. intros [] _; [exact I|].
  apply bind_plain; [cbn [all_of is]; rewrite peek0; cbn; destruct (_ =? _); exact I|]. intros [] _; [exact I|].
  exact I.
Qed.
Lemma ends_plain : forall s, plain (ends_here s).
Proof.
  intros s. unfold ends_here. apply bind_plain; [apply keyword_plain|]. intros k _. apply bind_plain.
  - unfold is_anonymous. destruct k as [[]|]; try exact I. apply bind_plain; [|intros b _; rewrite peek0; exact I].
    pose proof (blanks_good (adv 8 s)) as G. destruct (blanks _); cbn in *; auto.
  - intros [] _; [exact I|]. rewrite peek0. exact I.
Qed.
Lemma check_plain : forall w, plain (check_identifier_name w).
Proof.
  intros w. unfold check_identifier_name. apply bind_plain; [apply keyword_plain|]. intros [] _; [exact I|].
  apply bind_plain; [apply operator_plain|]. intros [] _; [exact I|]. destruct (existsb _ _); [exact I|]. rewrite peek0. exact I.
Qed.
Lemma name_good : forall s, good s snd False (name_loop s).
Proof.
  induction s as [|c s IH]; cbn [name_loop]; [apply suf_refl|]. destruct (end_spec0 (c :: s)) as (b & -> & _). cbn [rbind].
  destruct b; [apply suf_refl|]. destruct (name_loop s) as [[w r]| | |]; cbn in *; auto. destruct IH as [t ->]. exists (c :: t). reflexivity.
Qed.
Lemma accessor_good : forall s, good s snd False (accessor_name s).
Proof.
  intros s. unfold accessor_name. apply (good_bind s s snd snd False False); auto using suf_refl; [apply name_good|].
  intros [w r] _ S. apply plain_bind; [apply check_plain|]. intros [] _; cbn; [|exact I]. destruct (negb _); [exact S | exact I].
Qed.
Lemma symbol_good : forall s, good s snd (s = []) (symbol_token s).
Proof.
  intros s. destruct s as [|c s]; [reflexivity|]. destruct (symbol_safe (c :: s) ltac:(discriminate)) as [->|[[t r] E]]; [exact I|].
  rewrite E. apply symbol_sound in E. cbn. destruct t as [[]|v|w].
  - destruct E as (v0 & -> & _). exists v0. reflexivity.
  - destruct E as [-> _]. exists v. reflexivity.
  - destruct E as [E _]. rewrite E. exists (34 :: v ++ [34]). cbn. rewrite <- app_assoc. reflexivity.
  - destruct E as [-> _]. exists w. reflexivity.
Qed.

(** An operator or a sign, and then nothing but what is skipped; [lone]: what is skipped twice. *)
Definition sign (w : list Z) : Prop := (exists o, w = spelling o) \/ (exists q, q <> PreInvalid /\ w = pre_spelling q).
Definition void (b : ptr) : Prop := exists v, blanks b = Ok v /\ blanks v = Ok [].
Definition lone (b : ptr) : Prop := exists v, blanks b = Ok v /\ v <> [] /\ blanks v = Ok [].
Definition dang (s : ptr) : Prop := exists p w b, s = p ++ w ++ b /\ ((sign w /\ void b) \/ lone b).
Lemma dang_suf : forall s u, suf s u -> dang u -> dang s.
Proof. intros s u [t ->] (p & w & b & -> & H). exists (t ++ p), w, b. rewrite <- app_assoc. auto. Qed.
Lemma good_up : forall {A} s s' (r : A -> ptr) (D D' : Prop) x, good s' r D' x -> suf s s' -> (D' -> D) -> good s r D x.
Proof. intros A s s' r D D' [a| | |] H S K; cbn in *; auto. apply (suf_trans _ _ _ S H). Qed.

Section Total.
Variable other : okind -> ptr -> res (Z * ptr).
Variable kind : literal -> option bool.
Variable known is_type : list Z -> bool.
Variable makes : pexpr -> bool.
Notation p_sub := (p_sub other kind known is_type makes).
Notation p_toks := (p_toks other kind known is_type makes).
Notation p_opnd := (p_opnd other kind known is_type makes).
Notation p_core := (p_core other kind known is_type makes).
Notation p_accs := (p_accs other kind known is_type makes).
Notation p_args := (p_args other kind known is_type makes).
(** What the other parts do is an error or leaves a rest of the text. *)
Hypothesis other_good : forall k s, good s snd False (other k s).

Definition T_sub f := forall s, (8 * len s + 4 <= f)%nat -> good s snd (dang s) (p_sub f s).
Definition T_toks f := forall s, (8 * len s + 3 <= f)%nat -> good s snd (blanks s = Ok [] \/ dang s) (p_toks f s).
Definition T_opnd f := forall s, (8 * len s + 2 <= f)%nat -> good s snd (blanks s = Ok [] \/ dang s) (p_opnd f s).
Definition T_core f := forall pre s, (8 * len s + 1 <= f)%nat -> good s snd (s = [] \/ dang s) (p_core f pre s).
Definition T_accs f := forall s, (8 * len s + 1 <= f)%nat -> In (hd0 s) [46; 91; 40] -> good s snd (dang s) (p_accs f s).
Definition T_args f := forall first s, (8 * len s + (if first : bool then 5 else 1) <= f)%nat ->
  good s snd (dang s) (p_args f first s).

Ltac up S := apply (good_up _ _ _ _ _ _ S).
Lemma total_sub : forall f, T_sub f -> T_toks f -> T_sub (Datatypes.S f).
Proof.
  intros f IS IT s L. rewrite p_sub_eq. eapply good_bind; [apply blanks_good | apply suf_refl | tauto|]. intros u EU SU. cbn beta in SU.
  destruct (existsb _ _); [exact I|]. apply plain_bind; [apply ends_plain|]. intros [] EH; [exact SU|]. assert (LU := suf_len _ _ SU).
  assert (NE : u <> []) by (intros ->; discriminate EH).
  eapply good_bind; [apply IT; lia | exact SU | intros [N|D]; [exists [], [], s; split; [reflexivity | right; exists u; auto] | apply (dang_suf _ _ SU D)]|]. intros [[h tl] v] _ SV. cbn [snd] in SV.
  assert (SV' := suf_trans _ _ _ SU SV). destruct (assign_ok h tl); [|exact I]. cbn [negb].
  destruct (Z.eqb_spec (hd0 v) 63) as [E|E]; [|exact SV']. assert (LV := adv_shorter v ltac:(lia)). assert (LV' := suf_len _ _ SV').
  assert (S1 := suf_trans _ _ _ SV' (suf_adv 1 v)).
  eapply good_bind; [apply IS; lia | exact S1 | apply (dang_suf _ _ S1)|]. intros [p1 u1] _ SU1. cbn [fst snd] in *. destruct p1; [exact I|].
  destruct (Z.eqb_spec (hd0 u1) 58) as [E1|E1]; [|exact I]. cbn [negb]. assert (LU1 := adv_shorter u1 ltac:(lia)). assert (LU1' := suf_len _ _ SU1).
  assert (S2 := suf_trans _ _ _ (suf_trans _ _ _ S1 SU1) (suf_adv 1 u1)).
  eapply good_bind; [apply IS; lia | exact S2 | apply (dang_suf _ _ S2)|]. intros [p2 u2] _ SU2. cbn [fst snd] in *. apply (suf_trans _ _ _ S2 SU2).
Qed.
Lemma spelling_ne : forall o, (1 <= len (spelling o))%nat.
Proof. destruct o; cbn; lia. Qed.
Lemma total_toks : forall f, T_toks f -> T_opnd f -> T_toks (Datatypes.S f).
Proof.
  intros f IT IO s L. rewrite p_toks_eq. eapply good_bind; [apply IO; lia | apply suf_refl | auto|]. intros [a aux] _ SA. cbn [snd] in SA.
  eapply good_bind; [apply blanks_good | exact SA | tauto|]. intros u _ SU. cbn beta in SU. assert (S1 := suf_trans _ _ _ SA SU).
  apply plain_bind; [apply operator_plain|]. intros o EO. apply plain_bind; [apply ends_plain|]. intros e _.
  assert (STOP : good s snd (blanks s = Ok [] \/ dang s) (Ok (a, PNil, u))) by exact S1.
  destruct o as [o|]; [|destruct (_ || _); [exact STOP | exact I]].
  assert (GO : good s snd (blanks s = Ok [] \/ dang s) (do v <- blanks (adv (len (spelling o)) u);
                do r2 <- p_toks f v; let '(b, tl, w) := r2 in Ok (a, PCons o b tl, w))).
  { assert (EU := operator_sound _ _ EO). assert (NO := spelling_ne o). assert (S2 := suf_adv (len (spelling o)) u).
    assert (LL : (len (adv (len (spelling o)) u) < len u)%nat) by (rewrite EU at 2; rewrite app_length; lia). assert (LS := suf_len _ _ S1).
    set (u' := adv (len (spelling o)) u) in *. clearbody u'. assert (S3 := suf_trans _ _ _ S1 S2).
    eapply good_bind; [apply blanks_good | exact S3 | tauto|]. intros v EV SV. cbn beta in SV. assert (S4 := suf_trans _ _ _ S3 SV). assert (LV := suf_len _ _ SV).
    eapply good_bind; [apply IT; lia | exact S4 | |].
    - intros [N|D]; [|right; apply (dang_suf _ _ S4 D)]. right. apply (dang_suf _ _ S1). exists [], (spelling o), u'. split; [exact EU|].
      left. split; [left; eauto | exists v; auto].
    - intros [[b tl] w] _ SW. cbn [snd] in *. apply (suf_trans _ _ _ S4 SW). }
  destruct o; try exact STOP; (destruct e; [exact STOP | exact GO]).
Qed.
Lemma total_core : forall f, T_sub f -> T_core (Datatypes.S f).
Proof.
  intros f IS pre s L. rewrite p_core_eq. destruct (Z.eqb_spec (hd0 s) 40) as [E|E].
  - assert (G : good s snd (s = [] \/ dang s) (do r <- p_sub f (adv 1 s);
            match fst r with
            | PNone => Thr
            | PSome e => if hd0 (snd r) =? 41 then Ok (CParen e, TyParen, adv 1 (snd r)) else Thr
            end)).
    { assert (LA := adv_shorter s ltac:(lia)). assert (S1 := suf_adv 1 s).
      eapply good_bind; [apply IS; lia | exact S1 | intros D; right; apply (dang_suf _ _ S1 D)|].
      intros [po v] _ SV. cbn [fst snd] in *. destruct po; [exact I|]. destruct (_ =? _); [|exact I].
      apply (suf_trans _ _ _ (suf_trans _ _ _ S1 SV) (suf_adv 1 v)). }
    destruct pre as [[]|]; try exact G; exact I.
  - apply plain_bind; [apply keyword_plain|]. intros k _.
    assert (OT : forall kk (w : ttype), good s snd (s = [] \/ dang s) (do x <- other kk s; Ok (COther kk (fst x), w, snd x))).
    { intros kk w. eapply good_bind; [apply other_good | apply suf_refl | tauto|]. intros [x r] _ S. exact S. }
    destruct (hd0 s =? 91); [apply OT|]. destruct (hd0 s =? 123); [apply OT|].
    assert (G : good s snd (s = [] \/ dang s) (do r <- symbol_token s;
              match fst r with
              | TLit l =>
                  match kind l with
                  | Some true => Ok (CLit l, TyInt, snd r)
                  | Some false => Ok (CLit l, TyFloat, snd r)
                  | None => Thr
                  end
              | TStr v => Ok (CStr v, TyString, snd r)
              | TWord w => word_core other known w s (snd r)
              end)).
    { eapply good_bind; [apply symbol_good | apply suf_refl | auto|]. intros [t r] _ S. cbn [fst snd] in *. destruct t as [l|v|w].
      - destruct (kind l) as [[]|]; try exact S; exact I.
      - exact S.
      - unfold word_core. destruct (_ || _); [exact S|]. destruct (is_bool w); [exact S|]. destruct (list_eqb _ _); [apply OT|].
        destruct (list_eqb _ _); [apply OT|]. apply plain_bind; [apply check_plain|]. intros ok _. destruct (_ || _); [exact I|].
        destruct (_ && _); [apply OT | exact S]. }
    destruct k as [[]|]; try apply OT; exact G.
Qed.
Lemma total_opnd : forall f, T_core f -> T_accs f -> T_opnd (Datatypes.S f).
Proof.
  intros f IC IA s L. rewrite p_opnd_eq. apply plain_bind; [apply pre_plain|]. intros pre PR.
  assert (X : good s (fun u => u) False (match pre with None => Ok s | Some PreInvalid => Thr | Some q => Ok (adv (len (pre_spelling q)) s) end)).
  { destruct pre as [[]|]; try apply suf_adv; [exact I | apply suf_refl]. }
  eapply good_bind; [exact X | apply suf_refl | tauto|]. intros s1 E1 S1. cbn beta in S1.
  eapply good_bind; [apply blanks_good | exact S1 | tauto|]. intros s2 E2 S2. cbn beta in S2. assert (S12 := suf_trans _ _ _ S1 S2). assert (L12 := suf_len _ _ S12).
  eapply good_bind; [apply IC; lia | exact S12 | |].
  { intros [->|D]; [|right; apply (dang_suf _ _ S12 D)]. destruct pre as [q|].
    - right. exists [], (pre_spelling q), s1. assert (Q : q <> PreInvalid) by (intros ->; discriminate E1).
      split; [|left; split; [right; eauto | exists []; split; [exact E2 | reflexivity]]].
      rewrite (pre_sound _ _ PR Q) at 1. cbn [app]. f_equal. destruct q; try congruence; inversion E1; reflexivity.
    - inversion E1; subst s1. left. exact E2. }
  intros [[c t] aux] _ SA. cbn [snd] in SA. assert (S3 := suf_trans _ _ _ S12 SA).
  apply plain_bind; [destruct t, pre as [[]|]; exact I|]. intros left _.
  eapply good_bind; [apply blanks_good | exact S3 | tauto|]. intros test _ ST. cbn beta in ST. assert (S4 := suf_trans _ _ _ S3 ST). assert (L4 := suf_len _ _ S4).
  assert (Y : good s snd (blanks s = Ok [] \/ dang s) (if punct test then if access_ok is_type makes t c test then p_accs f test else Thr else Ok (ANil, aux))).
  { destruct (punct test) eqn:PU; [|exact S3]. destruct (access_ok is_type makes t c test); [|exact I]. unfold punct in PU. apply existsb_In in PU.
    eapply good_up; [apply IA; [lia | exact PU] | exact S4 | intros D; right; apply (dang_suf _ _ S4 D)]. }
  eapply good_bind; [exact Y | apply suf_refl | auto|]. intros [acs aux2] _ S5. cbn [snd] in S5.
  apply plain_bind; [apply post_plain|]. intros q _.
  assert (W : good s snd False (match q with
                | Some PostInc | Some PostDec =>
                    if post_ok pre t
                    then Ok (Some (match q with Some PostInc => true | _ => false end), adv 2 aux2) else Thr
                | _ => Ok (None, aux2)
                end)).
  { destruct q as [[]|]; try exact S5; (destruct (post_ok pre t); [apply (suf_trans _ _ _ S5 (suf_adv 2 _)) | exact I]). }
  eapply good_bind; [exact W | apply suf_refl | tauto|]. intros [post aux3] _ S6. cbn [fst snd] in *. destruct (pre_ok is_type left t c); [exact S6 | exact I].
Qed.
Lemma total_accs : forall f, T_sub f -> T_accs f -> T_args f -> T_accs (Datatypes.S f).
Proof.
  intros f IS IA IG s L PU. rewrite p_accs_eq. assert (NZ : hd0 s <> 0) by (cbn in PU; intuition lia). assert (LA := adv_shorter s NZ). assert (SA := suf_adv 1 s).
  assert (ACC : good (adv 1 s) snd (dang s) (acc_step other kind known is_type makes f s)).
  { unfold acc_step. destruct (Z.eqb_spec (hd0 s) 40) as [E|E].
    - eapply good_bind; [apply blanks_good | apply suf_refl | tauto|]. intros b _ SB. cbn beta in SB. assert (LB := suf_len _ _ SB).
      eapply good_bind; [apply IG; lia | exact SB | apply dang_suf; apply (suf_trans _ _ _ SA SB)|]. intros [g v] _ SV. cbn [fst snd] in *.
      apply (suf_trans _ _ _ (suf_trans _ _ _ SB SV) (suf_adv 1 v)).
    - destruct (hd0 s =? 91).
      + eapply good_bind; [apply IS; lia | apply suf_refl | apply (dang_suf _ _ SA)|]. intros [g v] _ SV. cbn [fst snd] in *. destruct (_ =? _); [|exact I].
        apply (suf_trans _ _ _ SV (suf_adv 1 v)).
      + eapply good_bind; [apply blanks_good | apply suf_refl | tauto|]. intros b _ SB. cbn beta in SB.
        eapply good_bind; [apply accessor_good | exact SB | tauto|]. intros [g v] _ SV. apply (suf_trans _ _ _ SB SV). }
  eapply good_bind; [exact ACC | exact SA | auto|]. intros [a aux] _ S1. cbn [snd] in S1. assert (S1' := suf_trans _ _ _ SA S1).
  eapply good_bind; [apply blanks_good | exact S1' | tauto|]. intros test _ ST. cbn beta in ST.
  destruct (punct test) eqn:PT; [|exact S1']. unfold punct in PT. apply existsb_In in PT.
  assert (L1 := suf_len _ _ S1). assert (LT := suf_len _ _ ST). assert (S2 := suf_trans _ _ _ S1' ST).
  eapply good_bind; [apply IA; [lia | exact PT] | exact S2 | apply (dang_suf _ _ S2)|]. intros [r v] _ SV. apply (suf_trans _ _ _ S2 SV).
Qed.
Lemma total_args : forall f, T_sub f -> T_args f -> T_args (Datatypes.S f).
Proof.
  intros f IS IG first s L. rewrite p_args_eq. destruct (hd0 s =? 41); [apply suf_refl|].
  assert (X : good s (fun u => u) False (if first then Ok s else if hd0 s =? 44 then blanks (adv 1 s) else Thr)).
  { destruct first; [apply suf_refl|]. destruct (_ =? _); [|exact I]. eapply good_up; [apply blanks_good | apply suf_adv | auto]. }
  eapply good_bind; [exact X | apply suf_refl | tauto|]. intros b EB SB. cbn beta in SB.
  destruct (negb first && (hd0 b =? 41)); [exact SB|].
  assert (LB : (8 * len b + (if first then 5 else 9) <= Datatypes.S f)%nat).
  { destruct first; [inversion EB; subst; lia|]. destruct (Z.eqb_spec (hd0 s) 44) as [E|E]; [|discriminate].
    assert (LA := adv_shorter s ltac:(lia)). pose proof (blanks_good (adv 1 s)) as G. rewrite EB in G. apply suf_len in G. lia. }
  eapply good_bind; [apply IS; destruct first; lia | exact SB | apply (dang_suf _ _ SB)|]. intros [po v] _ SV. cbn [fst snd] in *. destruct po; [exact I|].
  assert (LV := suf_len _ _ SV). assert (S2 := suf_trans _ _ _ SB SV).
  eapply good_bind; [apply IG; destruct first; lia | exact S2 | apply (dang_suf _ _ S2)|]. intros [g u] _ SU. apply (suf_trans _ _ _ S2 SU).
Qed.
Theorem total_all : forall f, T_sub f /\ T_toks f /\ T_opnd f /\ T_core f /\ T_accs f /\ T_args f.
Proof.
  induction f as [|f (I1 & I2 & I3 & I4 & I5 & I6)].
  - unfold T_sub, T_toks, T_opnd, T_core, T_accs, T_args.
    split; [intros; lia|]. split; [intros; lia|]. split; [intros; lia|]. split; [intros; lia|]. split; [intros; lia|]. intros [] s L; lia.
  - split; [apply total_sub; auto|]. split; [apply total_toks; auto|]. split; [apply total_opnd; auto|].
    split; [apply total_core; auto|]. split; [apply total_accs; auto | apply total_args; auto].
Qed.
Theorem parse_good : forall s, good s snd (dang s) (parse other kind known is_type makes s).
Proof. intros s. apply total_all. unfold fuel_for. lia. Qed.
End Total.

(** Without carriage returns of their own nothing is skipped twice. *)
Lemma lone_none : forall b, no_lone_cr b -> ~ lone b.
Proof.
  intros b N (v & B & NV & B2). unfold blanks in B. apply bind_ok in B. destruct B as ([v' l] & E & B). cbn in B. inversion B; subst v'.
  pose proof (blanks_main (Datatypes.S (len b)) b 0 ltac:(lia) N) as M. rewrite E in M. destruct M as (p & -> & SG & _).
  apply nlc_suffix in N. unfold blanks in B2. apply bind_ok in B2. destruct B2 as ([w l2] & E2 & B2). cbn in B2. inversion B2; subst w.
  assert (Q : ignore_blanks v 0 = Ok (v, 0) \/ ignore_blanks v 0 = Thr); [|destruct Q; congruence].
  destruct SG as (G1 & G2 & G3 & G4). destruct v as [|c v]; [congruence|].
  assert (C : c <> 13). { intros ->. destruct (N [] v eq_refl) as [x ->]. apply G2. exists x. reflexivity. }
  assert (C2 : ~ (c = 32 \/ c = 9 \/ c = 10)) by (intros X; apply G1; exists c, v; auto).
  assert (T1 : two 47 47 (c :: v) = false). { destruct (two 47 47 (c :: v)) eqn:T; [|reflexivity]. apply two_spec in T; [|lia]. destruct T as [r T]. exfalso. apply G3. exists r. exact T. }
  assert (T2 : two 47 42 (c :: v) = false). { destruct (two 47 42 (c :: v)) eqn:T; [|reflexivity]. apply two_spec in T; [|lia]. destruct T as [r T]. exfalso. apply G4. exists r. exact T. }
  destruct (two 42 47 (c :: v)) eqn:T3.
  - right. apply two_spec in T3; [|lia]. destruct T3 as [r ->]. apply (ib_stray r).
  - left. apply ib_sig; cbn; tauto.
Qed.
