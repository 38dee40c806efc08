(** What is read of literals is there, reading ends, and what the code of literals does. *)
From Coq Require Import List ZArith Bool Lia String.
From Verif Require Import Base StringModel LexModel LexSpec LexProofs LexOps LexTok LexNum LexProps ParseModel ParseSpec ParseLex ParseProofs ParseMain ParseSound ParseTotal
  LitModel LitSpec LitProofs.
Import ListNotations.
Local Open Scope Z_scope.
Local Arguments ends_here : simpl never.
Local Arguments blanks : simpl never.
Local Arguments is_operator : simpl never.
Local Arguments is_keyword : simpl never.
Local Arguments string_literal : simpl never.
Local Arguments get_name_identifier_token : simpl never.
Local Arguments fuel_for : simpl never.
Local Arguments adv : simpl never.
Local Arguments key : simpl never.

(** What is skipped is skipped at once. *)
Lemma settled : forall s u v, no_lone_cr s -> blanks s = Ok u -> blanks u = Ok v -> v = u.
Proof.
  intros b v z N B B2. unfold blanks in B. apply bind_ok in B. destruct B as ([v' l] & E & B). cbn in B. inversion B; subst v'.
  pose proof (blanks_main (Datatypes.S (len b)) b 0 ltac:(lia) N) as M. rewrite E in M. destruct M as (p & -> & SG & _).
  apply nlc_suffix in N. unfold blanks in B2. apply bind_ok in B2. destruct B2 as ([w l2] & E2 & B2). cbn in B2. inversion B2; subst w.
  destruct SG as (G1 & G2 & G3 & G4). destruct v as [|c v].
  { vm_compute in E2. inversion E2. reflexivity. }
  assert (Q : ignore_blanks (c :: v) 0 = Ok (c :: v, 0) \/ ignore_blanks (c :: v) 0 = Thr); [|destruct Q; congruence].
  assert (C : c <> 13). { intros ->. destruct (N [] v eq_refl) as [x ->]. apply G2. exists x. reflexivity. }
  assert (C2 : ~ (c = 32 \/ c = 9 \/ c = 10)) by (intros X; apply G1; exists c, v; auto).
  assert (T1 : two 47 47 (c :: v) = false). { destruct (two 47 47 (c :: v)) eqn:T; [|reflexivity]. apply two_spec in T; [|lia]. destruct T as [r T]. exfalso. apply G3. exists r. exact T. }
  assert (T2 : two 47 42 (c :: v) = false). { destruct (two 47 42 (c :: v)) eqn:T; [|reflexivity]. apply two_spec in T; [|lia]. destruct T as [r T]. exfalso. apply G4. exists r. exact T. }
  destruct (two 42 47 (c :: v)) eqn:T3.
  - right. apply two_spec in T3; [|lia]. destruct T3 as [r ->]. apply (ib_stray r).
  - left. apply ib_sig; cbn; tauto.
Qed.

Section Sound.
Variable other : okind -> ptr -> res (Z * ptr).
Variable kind : literal -> option bool.
Variable known is_type : list Z -> bool.
Variable makes : pexpr -> bool.
Notation parse := (parse other kind known is_type makes).
Notation items := (items other kind known is_type makes).
Notation pairs := (pairs other kind known is_type makes).
Notation read_array := (read_array other kind known is_type makes).
Notation read_object := (read_object other kind known is_type makes).
Notation spelled := (spelled other).
Hypothesis other_sound : forall k s x r, other k s = Ok (x, r) -> exists t, s = t ++ r.

Lemma parse_some : forall s e u, no_lone_cr s -> parse s = Ok (PSome e, u) -> exists b t r, s = b ++ t ++ r ++ u /\ trivia b /\ spelled e t /\ skipped r u.
Proof. intros s e u N H. exact (proj1 (sound_all other kind known is_type makes other_sound (fuel_for s)) s (PSome e) u N H). Qed.
(** Where there is no expression the next character is no comma and no end. *)
Lemma parse_none : forall s u, (forall v, blanks s = Ok v -> v = s) -> parse s = Ok (PNone, u) -> u = s /\ ~ In (hd0 s) [41; 44; 93; 0; 125].
Proof.
  intros s u SE H. rewrite parse_S in H. apply bind_ok in H. destruct H as (v & B & H). apply SE in B as E. subst v.
  destruct (existsb (Z.eqb (hd0 s)) _) eqn:X; [discriminate|]. apply bind_ok in H. destruct H as (e & _ & H). destruct e.
  - inversion H; subst. split; [reflexivity|]. intros I. apply existsb_In in I. congruence.
  - apply bind_ok in H. destruct H as ([[h tl] v] & _ & H). destruct (negb _) in H; [discriminate|]. destruct (hd0 v =? 63); [|discriminate].
    apply bind_ok in H. destruct H as (r1 & _ & H). destruct (fst r1); [discriminate|]. destruct (negb _) in H; [discriminate|].
    apply bind_ok in H. destruct H as (r2 & _ & H). discriminate.
Qed.
Lemma hd_not_nil : forall s c, hd0 s = c -> c <> 0 -> s <> [].
Proof. intros s c H N ->. cbn in H. congruence. Qed.

Lemma items_sound : forall f first s c u, no_lone_cr s -> items f first s = Ok (c, u) -> hd0 u = 93 ->
  exists es, c = flat_map (fun e => [EExpr (PSome e); EItem]) es /\
    if first : bool
    then (es = [] /\ s = u) \/ (exists e es' b t b2 m, es = e :: es' /\ s = b ++ t ++ b2 ++ m ++ u /\ trivia b /\ spelled e t /\ trivia b2 /\ more_items spelled es' m)
    else (exists b m, s = b ++ m ++ u /\ trivia b /\ more_items spelled es m).
Proof.
  induction f as [|f IH]; intros first s c u N H U; [discriminate|]. rewrite items_S in H.
  destruct ((hd0 s =? 0) || (hd0 s =? 93)).
  { inversion H; subst. exists []. split; [reflexivity|]. destruct first; [left; auto|]. exists [], []. split; [reflexivity|]. split; [apply tr_nil | constructor]. }
  apply bind_ok in H. destruct H as (b & B & H). apply bind_ok in H. destruct H as (c0 & C & H).
  apply bind_ok in H. destruct H as ([po v] & HP & H). apply bind_ok in H. destruct H as ([t' u'] & HT & H). cbn [fst snd] in *. inversion H; subst c u'. clear H.
  destruct (blanks_sound s b N B) as (bb & Es & SK). assert (Nb : no_lone_cr b) by (rewrite Es in N; apply nlc_suffix in N; exact N).
  (* where the expression starts *)
  assert (X : no_lone_cr c0 /\ (forall x, blanks c0 = Ok x -> x = c0) /\
              (if first then c0 = b else exists b1, s = bb ++ 44 :: b1 ++ c0 /\ trivia bb /\ skipped b1 c0)).
  { destruct first.
    - destruct (hd0 b =? 44); [discriminate|]. inversion C; subst c0. split; [exact Nb|]. split; [intros x; apply (settled s b x N B) | reflexivity].
    - destruct (Z.eqb_spec (hd0 b) 44) as [E|]; [|discriminate]. assert (EV := adv1_hd b 44 E ltac:(lia)). assert (N1 := Nb). rewrite EV in N1. apply (nlc_suffix [44]) in N1.
      destruct (blanks_sound _ _ N1 C) as (b1 & E1 & SK1). split; [rewrite E1 in N1; apply nlc_suffix in N1; exact N1|]. split; [intros x; apply (settled _ _ x N1 C)|].
      exists b1. split; [|split; [apply (skipped_trivia _ _ SK (hd_not_nil _ _ E ltac:(lia))) | exact SK1]]. rewrite Es, EV, E1 at 1. reflexivity. }
  destruct X as (N0 & SE & X). destruct po as [|e].
  { exfalso. destruct (parse_none c0 v SE HP) as [-> NI]. destruct f as [|f]; [discriminate HT|]. rewrite items_S in HT. cbn in NI.
    assert ((hd0 c0 =? 0) || (hd0 c0 =? 93) = false) as Z by (destruct (Z.eqb_spec (hd0 c0) 0), (Z.eqb_spec (hd0 c0) 93); cbn; auto; exfalso; intuition congruence).
    rewrite Z in HT. apply bind_ok in HT. destruct HT as (b' & B' & HT). apply SE in B'. subst b'.
    destruct (Z.eqb_spec (hd0 c0) 44); [intuition congruence|]. discriminate. }
  destruct (parse_some c0 e v N0 HP) as (bx & t & r & E0 & TB & SP & SR).
  assert (Nv : no_lone_cr v) by (rewrite E0 in N0; do 3 apply nlc_suffix in N0; exact N0).
  destruct (IH false v t' u Nv HT U) as (es & -> & b3 & m & Ev & TB3 & MI). exists (e :: es). split; [reflexivity|].
  assert (NV : v <> []). { rewrite Ev. intros Z. apply app_eq_nil in Z. destruct Z as [_ Z]. apply app_eq_nil in Z. destruct Z as [_ ->]. discriminate U. }
  apply (skipped_trivia _ _ SR) in NV as TR.
  assert (NC : c0 <> []). { rewrite E0. intros Z. apply app_eq_nil in Z. destruct Z as [_ Z]. apply app_eq_nil in Z. destruct Z as [_ Z]. apply app_eq_nil in Z. destruct Z as [_ ->]. congruence. }
  destruct first.
  - right. subst c0. exists e, es, (bb ++ bx), t, (r ++ b3), m. split; [reflexivity|]. split; [rewrite Es, E0, Ev; rewrite <- !app_assoc; reflexivity|].
    split; [apply trivia_app; [apply (skipped_trivia _ _ SK NC) | exact TB]|]. split; [exact SP|]. split; [apply trivia_app; auto | exact MI].
  - destruct X as (b1 & E1 & T1 & SK1). exists bb, (44 :: (b1 ++ bx) ++ t ++ (r ++ b3) ++ m). split; [rewrite E1, E0, Ev; cbn [app]; rewrite <- !app_assoc; reflexivity|].
    split; [exact T1|]. constructor; auto; apply trivia_app; auto. apply (skipped_trivia _ _ SK1 NC).
Qed.
Lemma array_sound : forall s c u, no_lone_cr s -> read_array s = Ok (c, u) ->
  exists b es t, s = b ++ t ++ u /\ trivia b /\ array_text spelled es t /\ c = array_code es.
Proof.
  intros s c u N H. unfold LitModel.read_array in H. apply bind_ok in H. destruct H as (a & A & H). destruct (blanks_sound s a N A) as (b & -> & SK).
  destruct (Z.eqb_spec (hd0 a) 91) as [E|]; [|discriminate]. cbn [negb] in H. apply bind_ok in H. destruct H as (v & V & H).
  apply bind_ok in H. destruct H as ([c' w] & I & H). cbn [fst snd] in H. destruct (Z.eqb_spec (hd0 w) 93) as [E2|]; [|discriminate]. inversion H; subst c u. clear H.
  assert (EA := adv1_hd a 91 E ltac:(lia)). assert (EW := adv1_hd w 93 E2 ltac:(lia)).
  assert (TB := skipped_trivia _ _ SK (hd_not_nil a 91 E ltac:(lia))). assert (Na := nlc_suffix _ _ N). rewrite EA in Na. apply (nlc_suffix [91]) in Na.
  destruct (blanks_sound _ _ Na V) as (b1 & E1 & SK1). rewrite E1 in Na. apply nlc_suffix in Na.
  destruct (items_sound _ true v c' w Na I E2) as (es & -> & X).
  assert (NV : v <> []).
  { destruct X as [[_ ->]|(e & es' & b0 & t & b2 & m & _ & -> & _)]; [apply (hd_not_nil w 93); [exact E2 | lia]|].
    intros Z. do 4 (apply app_eq_nil in Z; destruct Z as [_ Z]). apply (hd_not_nil w 93 E2 ltac:(lia) Z). }
  apply (skipped_trivia _ _ SK1) in NV. exists b. destruct X as [[-> ->]|(e & es' & b0 & t & b2 & m & -> & -> & T0 & SP & T2 & MI)].
  - exists [], (91 :: b1 ++ [93]). split; [rewrite EA, E1, EW at 1; cbn [app]; rewrite <- !app_assoc; reflexivity|]. split; [exact TB|]. split; [constructor; exact NV | reflexivity].
  - exists (e :: es'), (91 :: (b1 ++ b0) ++ t ++ b2 ++ m ++ [93]). split; [rewrite EA, E1, EW at 1; cbn [app]; rewrite <- !app_assoc; reflexivity|]. split; [exact TB|].
    split; [constructor; auto; apply trivia_app; auto | reflexivity].
Qed.

(** ** Objects *)
Lemma key_sound : forall s k r, key s = Ok (k, r) -> exists t, s = t ++ r /\ any_key k t.
Proof.
  intros s k r H. unfold key in H. destruct (hd0 s =? 34).
  - destruct (string_literal s) as [[k' r']| | |] eqn:E; try discriminate; [|destruct (_ || _) in H; discriminate]. cbn [fst] in H.
    apply string_literal_spec in E. destruct E as [-> B]. destruct k' as [|c k']; [discriminate|]. inversion H; subst.
    exists (34 :: (c :: k') ++ [34]). split; [cbn [app]; rewrite <- app_assoc; reflexivity|]. right. split; [exact B|]. split; [discriminate | reflexivity].
  - apply C87_declared_name in H. destruct H as (-> & A & (c & k' & -> & Al) & _). exists (c :: k'). split; [reflexivity|]. left. split; [|reflexivity].
    exists c, k'. split; [reflexivity|]. split; [exact Al|]. inversion A; auto.
Qed.
Lemma pairs_sound : forall f first s c u, no_lone_cr s -> pairs f first s = Ok (c, u) -> hd0 u = 125 ->
  exists ps, c = flat_map (fun p => [EKey (fst p); EExpr (PSome (snd p)); EPair]) ps /\
    if first : bool
    then (ps = [] /\ s = u) \/ (exists p ps' b t m, ps = p :: ps' /\ s = b ++ t ++ m ++ u /\ trivia b /\ pair_text any_key spelled p t /\ more_pairs any_key spelled ps' m)
    else (exists b m, s = b ++ m ++ u /\ trivia b /\ more_pairs any_key spelled ps m).
Proof.
  induction f as [|f IH]; intros first s c u N H U; [discriminate|]. rewrite pairs_S in H.
  destruct ((hd0 s =? 125) || (hd0 s =? 0)).
  { inversion H; subst. exists []. split; [reflexivity|]. destruct first; [left; auto|]. exists [], []. split; [reflexivity|]. split; [apply tr_nil | constructor]. }
  apply bind_ok in H. destruct H as (b & B & H). apply bind_ok in H. destruct H as (c0 & C & H). apply bind_ok in H. destruct H as (w & _ & H). destruct w; [discriminate|].
  apply bind_ok in H. destruct H as ([k x] & K & H). cbn [fst snd] in H. apply bind_ok in H. destruct H as (d & D & H).
  destruct (Z.eqb_spec (hd0 d) 58) as [E58|]; [|discriminate]. cbn [negb] in H. apply bind_ok in H. destruct H as (v0 & V & H).
  destruct (Z.eqb_spec (hd0 v0) 125) as [|N125]; [discriminate|].
  apply bind_ok in H. destruct H as ([po v] & HP & H). apply bind_ok in H. destruct H as ([t' u'] & HT & H). cbn [fst snd] in *. inversion H; subst c u'. clear H.
  destruct (blanks_sound s b N B) as (bb & Es & SK). assert (Nb : no_lone_cr b) by (rewrite Es in N; apply nlc_suffix in N; exact N).
  assert (X : no_lone_cr c0 /\ (if first then c0 = b else exists b1, s = bb ++ 44 :: b1 ++ c0 /\ trivia bb /\ skipped b1 c0)).
  { destruct first.
    - inversion C; subst c0. split; [exact Nb | reflexivity].
    - destruct (Z.eqb_spec (hd0 b) 44) as [E|]; [|discriminate]. assert (EV := adv1_hd b 44 E ltac:(lia)). assert (N1 := Nb). rewrite EV in N1. apply (nlc_suffix [44]) in N1.
      destruct (blanks_sound _ _ N1 C) as (b1 & E1 & SK1). split; [rewrite E1 in N1; apply nlc_suffix in N1; exact N1|].
      exists b1. split; [|split; [apply (skipped_trivia _ _ SK (hd_not_nil _ _ E ltac:(lia))) | exact SK1]]. rewrite Es, EV, E1 at 1. reflexivity. }
  destruct X as (N0 & X). destruct (key_sound _ _ _ K) as (kt & E0 & AK).
  assert (Nx : no_lone_cr x) by (rewrite E0 in N0; apply nlc_suffix in N0; exact N0). destruct (blanks_sound _ _ Nx D) as (b2 & Ex & SK2).
  assert (T2 := skipped_trivia _ _ SK2 (hd_not_nil d 58 E58 ltac:(lia))).
  assert (ED := adv1_hd d 58 E58 ltac:(lia)). assert (Nd := Nx). rewrite Ex in Nd. apply nlc_suffix in Nd. rewrite ED in Nd. apply (nlc_suffix [58]) in Nd.
  destruct (blanks_sound _ _ Nd V) as (b3 & Ed & SK3). assert (N3 := Nd). rewrite Ed in N3. apply nlc_suffix in N3.
  assert (SE : forall y, blanks v0 = Ok y -> y = v0) by (intros y; apply (settled _ _ y Nd V)).
  destruct po as [|e].
  { exfalso. destruct (parse_none v0 v SE HP) as [-> NI]. destruct f as [|f]; [discriminate HT|]. rewrite pairs_S in HT. cbn in NI.
    assert ((hd0 v0 =? 125) || (hd0 v0 =? 0) = false) as Z by (destruct (Z.eqb_spec (hd0 v0) 0), (Z.eqb_spec (hd0 v0) 125); cbn; auto; exfalso; intuition congruence).
    rewrite Z in HT. apply bind_ok in HT. destruct HT as (b' & B' & HT). apply SE in B'. subst b'.
    destruct (Z.eqb_spec (hd0 v0) 44); [intuition congruence|]. discriminate. }
  destruct (parse_some v0 e v N3 HP) as (bx & t & r & Ev0 & TB & SP & SR).
  assert (Nv : no_lone_cr v) by (rewrite Ev0 in N3; do 3 apply nlc_suffix in N3; exact N3).
  destruct (IH false v t' u Nv HT U) as (ps & -> & b4 & m & Ev & TB4 & MI). exists ((k, e) :: ps). split; [reflexivity|].
  assert (NV : v <> []). { rewrite Ev. intros Z. do 2 (apply app_eq_nil in Z; destruct Z as [_ Z]). subst u. discriminate U. }
  apply (skipped_trivia _ _ SR) in NV as TR.
  assert (NV0 : v0 <> []). { rewrite Ev0. intros Z. do 3 (apply app_eq_nil in Z; destruct Z as [_ Z]). congruence. }
  apply (skipped_trivia _ _ SK3) in NV0 as T3.
  assert (NC : c0 <> []). { rewrite E0, Ex, ED. intros Z. do 2 (apply app_eq_nil in Z; destruct Z as [_ Z]). discriminate. }
  assert (P : pair_text any_key spelled (k, e) (kt ++ b2 ++ 58 :: (b3 ++ bx) ++ t ++ (r ++ b4))) by (constructor; auto; apply trivia_app; auto).
  destruct first.
  - right. subst c0. exists (k, e), ps, bb, (kt ++ b2 ++ 58 :: (b3 ++ bx) ++ t ++ (r ++ b4)), m. split; [reflexivity|].
    split; [rewrite Es, E0, Ex, ED, Ed, Ev0, Ev; repeat (rewrite <- app_assoc; cbn [app]); reflexivity|].
    split; [apply (skipped_trivia _ _ SK NC)|]. split; [exact P | exact MI].
  - destruct X as (b1 & E1 & T1 & SK1). exists bb, (44 :: b1 ++ (kt ++ b2 ++ 58 :: (b3 ++ bx) ++ t ++ (r ++ b4)) ++ m).
    split; [rewrite E1, E0, Ex, ED, Ed, Ev0, Ev; repeat (rewrite <- app_assoc; cbn [app]); reflexivity|].
    split; [exact T1|]. constructor; auto. apply (skipped_trivia _ _ SK1 NC).
Qed.
Lemma object_sound : forall s c u, no_lone_cr s -> read_object s = Ok (c, u) ->
  exists ps t, s = t ++ u /\ object_text any_key spelled ps t /\ c = object_code ps.
Proof.
  intros s c u N H. unfold LitModel.read_object in H.
  destruct (Z.eqb_spec (hd0 s) 123) as [E|]; [|discriminate]. cbn [negb] in H. apply bind_ok in H. destruct H as (v & V & H).
  apply bind_ok in H. destruct H as ([c' w] & I & H). cbn [fst snd] in H. destruct (Z.eqb_spec (hd0 w) 125) as [E2|]; [|discriminate]. inversion H; subst c u. clear H.
  assert (EA := adv1_hd s 123 E ltac:(lia)). assert (EW := adv1_hd w 125 E2 ltac:(lia)). assert (Na := N). rewrite EA in Na. apply (nlc_suffix [123]) in Na.
  destruct (blanks_sound _ _ Na V) as (b1 & E1 & SK1). rewrite E1 in Na. apply nlc_suffix in Na.
  destruct (pairs_sound _ true v c' w Na I E2) as (ps & -> & X).
  assert (NV : v <> []).
  { destruct X as [[_ ->]|(p & ps' & b0 & t & m & _ & -> & _)]; [apply (hd_not_nil w 125); [exact E2 | lia]|].
    intros Z. do 3 (apply app_eq_nil in Z; destruct Z as [_ Z]). apply (hd_not_nil w 125 E2 ltac:(lia) Z). }
  apply (skipped_trivia _ _ SK1) in NV. destruct X as [[-> ->]|(p & ps' & b0 & t & m & -> & -> & T0 & SP & MI)].
  - exists [], (123 :: b1 ++ [125]). split; [rewrite EA, E1, EW at 1; cbn [app]; rewrite <- !app_assoc; reflexivity|]. split; [constructor; exact NV | reflexivity].
  - exists (p :: ps'), (123 :: (b1 ++ b0) ++ t ++ m ++ [125]). split; [rewrite EA, E1, EW at 1; cbn [app]; rewrite <- !app_assoc; reflexivity|].
    split; [constructor; auto; apply trivia_app; auto | reflexivity].
Qed.
End Sound.

(** ** Reading ends *)
Section Ends.
Variable other : okind -> ptr -> res (Z * ptr).
Variable kind : literal -> option bool.
Variable known is_type : list Z -> bool.
Variable makes : pexpr -> bool.
Notation parse := (parse other kind known is_type makes).
Notation items := (items other kind known is_type makes).
Notation pairs := (pairs other kind known is_type makes).
Notation read_array := (read_array other kind known is_type makes).
Notation read_object := (read_object other kind known is_type makes).
Hypothesis G : forall k s, good s snd False (other k s).

Definition fine {A} (s : ptr) (rest : A -> ptr) (x : res A) : Prop := good s rest True x.
Lemma fine_bind : forall {A B} s s' (ra : A -> ptr) (rb : B -> ptr) x f, good s' ra True x -> suf s s' ->
  (forall a, x = Ok a -> suf s' (ra a) -> good s rb True (f a)) -> good s rb True (rbind x f).
Proof. intros. eapply good_bind; eauto. Qed.
Lemma blanks_fine : forall s, good s (fun u => u) True (blanks s).
Proof. intros s. pose proof (blanks_good s) as B. destruct (blanks s); cbn in *; auto. Qed.
Lemma parse_fine : forall s, good s snd True (parse s).
Proof. intros s. pose proof (parse_good other kind known is_type makes G s) as P. destruct (parse s) as [[]| | |]; cbn in *; auto. Qed.
Lemma parse_end : parse [] = Thr.
Proof. rewrite parse_S. reflexivity. Qed.
Lemma hd_len : forall s, hd0 s <> 0 -> (1 <= len s)%nat.
Proof. intros [|c s] H; cbn in *; [congruence | lia]. Qed.
Lemma blanks_nil : blanks [] = Ok []. Proof. reflexivity. Qed.

Lemma items_ends : forall f s, (len s <= f)%nat -> (1 <= f)%nat -> good s snd True (items f false s).
Proof.
  induction f as [|f IH]; intros s L F; [lia|]. rewrite items_S. destruct ((hd0 s =? 0) || (hd0 s =? 93)); [apply suf_refl|].
  apply (fine_bind s s (fun u => u)); [apply blanks_fine | apply suf_refl|]. intros b _ Sb.
  destruct (Z.eqb_spec (hd0 b) 44) as [E|E]; [|exact I]. assert (L1 := adv_shorter b ltac:(lia)). assert (L2 := suf_len _ _ Sb).
  destruct f as [|f].
  { destruct (adv 1 b) as [|? ?] eqn:A; [|cbn in L1; lia]. rewrite blanks_nil. cbn [rbind]. rewrite parse_end. exact I. }
  apply (fine_bind s (adv 1 b) (fun u => u)); [apply blanks_fine | apply (suf_trans _ _ _ Sb (suf_adv 1 b))|]. intros c _ Sc.
  assert (S1 : suf s c) by (apply (suf_trans _ _ _ Sb), (suf_trans _ _ _ (suf_adv 1 b) Sc)). assert (L3 := suf_len _ _ Sc).
  apply (fine_bind s c snd); [apply parse_fine | exact S1|]. intros r _ Sr. assert (L4 := suf_len _ _ Sr).
  apply (fine_bind s (snd r) snd); [apply IH; lia | apply (suf_trans _ _ _ S1 Sr)|]. intros t _ St. cbn. apply (suf_trans _ _ _ S1), (suf_trans _ _ _ Sr St).
Qed.
Lemma array_ends : forall s, good s snd True (read_array s).
Proof.
  intros s. unfold LitModel.read_array. apply (fine_bind s s (fun u => u)); [apply blanks_fine | apply suf_refl|]. intros a _ Sa.
  destruct (negb _); [exact I|]. apply (fine_bind s (adv 1 a) (fun u => u)); [apply blanks_fine | apply (suf_trans _ _ _ Sa (suf_adv 1 a))|]. intros v _ Sv.
  assert (S1 : suf s v) by (apply (suf_trans _ _ _ Sa), (suf_trans _ _ _ (suf_adv 1 a) Sv)).
  assert (I1 : good v snd True (items (Datatypes.S (len v)) true v)).
  { rewrite items_S. destruct (hd0 v =? 0) eqn:Z; [apply suf_refl|]. destruct (hd0 v =? 93); [apply suf_refl|]. cbn [orb].
    apply (fine_bind v v (fun u => u)); [apply blanks_fine | apply suf_refl|]. intros b _ Sb. destruct (hd0 b =? 44); [exact I|]. cbn [rbind].
    apply (fine_bind v b snd); [apply parse_fine | exact Sb|]. intros r _ Sr. assert (Sx := suf_trans _ _ _ Sb Sr). assert (L := suf_len _ _ Sx).
    apply (fine_bind v (snd r) snd); [apply items_ends; [lia | apply hd_len; lia] | exact Sx|]. intros t _ St. cbn. apply (suf_trans _ _ _ Sx St). }
  apply (fine_bind s v snd); [exact I1 | exact S1|]. intros r _ Sr. destruct (_ =? _); [|exact I]. cbn. apply (suf_trans _ _ _ S1), (suf_trans _ _ _ Sr (suf_adv 1 _)).
Qed.
Lemma string_no_loop : forall s, string_literal s <> Loop.
Proof.
  intros s. unfold string_literal. rewrite peek0. cbn [rbind]. destruct (hd0 s =? 34); [|discriminate]. generalize 34 as p. generalize (adv 1 s) as t.
  induction t as [|c t IH]; intros p; cbn; [discriminate|]. destruct (_ && _); [discriminate|]. destruct (c =? 10); [discriminate|]. specialize (IH c). destruct (string_loop c t); cbn; congruence.
Qed.
Lemma key_fine : forall s, good s snd True (key s).
Proof.
  intros s. unfold key. destruct (hd0 s =? 34).
  - destruct (string_literal s) as [[k r]| | |] eqn:E; cbn [fst].
    + apply string_literal_spec in E. destruct E as [-> _]. destruct k; [exact I|]. cbn [good snd]. exists (34 :: (z :: k) ++ [34]). cbn [app]. rewrite <- app_assoc. reflexivity.
    + destruct (_ || _); exact I.
    + exact I.
    + exact (string_no_loop s E).
  - destruct (get_name_identifier_token s) as [[k r]| | |] eqn:E; [| exact I | exact I |].
    + apply C87_declared_name in E. destruct E as [-> _]. exists k. reflexivity.
    + unfold get_name_identifier_token in E. rewrite peek0 in E. cbn [rbind] in E. destruct (is_alpha_ _); discriminate E.
Qed.
Lemma pairs_ends : forall f first s, (len s < f)%nat -> good s snd True (pairs f first s).
Proof.
  induction f as [|f IH]; intros first s L; [lia|]. rewrite pairs_S. destruct (_ || _); [apply suf_refl|].
  apply (fine_bind s s (fun u => u)); [apply blanks_fine | apply suf_refl|]. intros b _ Sb.
  apply (fine_bind s b (fun u => u)).
  { destruct first; [apply suf_refl|]. destruct (hd0 b =? 44); [|exact I]. apply (good_up _ (adv 1 b) _ _ True); [apply blanks_fine | apply suf_adv | auto]. }
  { exact Sb. }
  intros c _ Sc. assert (S1 := suf_trans _ _ _ Sb Sc). apply (plain_bind s snd True (is_keyword c)); [apply keyword_plain|]. intros w _. destruct w; [exact I|].
  apply (fine_bind s c snd); [apply key_fine | exact S1|]. intros k _ Sk. assert (S2 := suf_trans _ _ _ S1 Sk).
  apply (fine_bind s (snd k) (fun u => u)); [apply blanks_fine | exact S2|]. intros d _ Sd. assert (S3 := suf_trans _ _ _ S2 Sd).
  destruct (Z.eqb_spec (hd0 d) 58) as [E|E]; [|exact I]. cbn [negb]. assert (L1 := adv_shorter d ltac:(lia)). assert (L2 := suf_len _ _ S3). assert (S4 := suf_trans _ _ _ S3 (suf_adv 1 d)).
  apply (fine_bind s (adv 1 d) (fun u => u)); [apply blanks_fine | exact S4|]. intros v _ Sv. assert (L3 := suf_len _ _ Sv). assert (S5 := suf_trans _ _ _ S4 Sv).
  destruct (_ =? _); [exact I|]. apply (fine_bind s v snd); [apply parse_fine | exact S5|]. intros r _ Sr. assert (L4 := suf_len _ _ Sr). assert (S6 := suf_trans _ _ _ S5 Sr).
  apply (fine_bind s (snd r) snd); [apply IH; lia | exact S6|]. intros t _ St. exact (suf_trans _ _ _ S6 St).
Qed.
Lemma object_ends : forall s, good s snd True (read_object s).
Proof.
  intros s. unfold LitModel.read_object. destruct (negb _); [exact I|].
  apply (fine_bind s (adv 1 s) (fun u => u)); [apply blanks_fine | apply suf_adv|]. intros v _ Sv. assert (S1 := suf_trans _ _ _ (suf_adv 1 s) Sv).
  apply (fine_bind s v snd); [apply pairs_ends; lia | exact S1|]. intros r _ Sr. destruct (_ =? _); [|exact I]. exact (suf_trans _ _ _ S1 (suf_trans _ _ _ Sr (suf_adv 1 _))).
Qed.
End Ends.

(** ** Running *)
Section Run.
Variables V W : Type.
Variable ev : pexpr -> W -> option (V * W).
Notation run := (run V W ev).
Notation evals := (evals V W ev).
Lemma run_items : forall es c vs s w, run (flat_map (fun e => [EExpr (PSome e); EItem]) es ++ c) (BArr V vs :: s) w =
  match evals es w with Some (xs, w') => run c (BArr V (vs ++ xs) :: s) w' | None => None end.
Proof.
  induction es as [|e es IH]; intros c vs s w; cbn.
  - rewrite app_nil_r. reflexivity.
  - destruct (ev e w) as [[v w1]|]; [|reflexivity]. rewrite IH. destruct (evals es w1) as [[xs w2]|]; [|reflexivity]. rewrite <- app_assoc. reflexivity.
Qed.
Fixpoint puts (ks : list (list Z)) (vs : list V) (kv : list (list Z * V)) : list (list Z * V) :=
  match ks, vs with k :: ks', v :: vs' => puts ks' vs' (put V k v kv) | _, _ => kv end.
Lemma run_pairs : forall ps c kv s w, run (flat_map (fun p => [EKey (fst p); EExpr (PSome (snd p)); EPair]) ps ++ c) (BObj V kv :: s) w =
  match evals (map snd ps) w with Some (xs, w') => run c (BObj V (puts (map fst ps) xs kv) :: s) w' | None => None end.
Proof.
  induction ps as [|[k e] ps IH]; intros c kv s w; cbn; [reflexivity|].
  destruct (ev e w) as [[v w1]|]; [|reflexivity]. rewrite IH. destruct (evals (map snd ps) w1) as [[xs w2]|]; reflexivity.
Qed.
Lemma list_eqb_refl : forall a, list_eqb a a = true. Proof. intros a. apply eqb_list. reflexivity. Qed.
Lemma find_put : forall k j v kv, find_key V j (put V k v kv) = if list_eqb k j then Some v else find_key V j kv.
Proof.
  intros k j v kv. induction kv as [|[k' v'] kv IH]; cbn; [reflexivity|]. destruct (list_eqb k' k) eqn:E; cbn.
  - apply eqb_list in E. subst k'. destruct (list_eqb k j); reflexivity.
  - rewrite IH. destruct (list_eqb k j) eqn:E2; [|reflexivity]. apply eqb_list in E2. subst j. rewrite E. reflexivity.
Qed.
Lemma find_puts : forall ks vs kv j, find_key V j (puts ks vs kv) = match last_value V j ks vs with Some v => Some v | None => find_key V j kv end.
Proof.
  induction ks as [|k ks IH]; intros [|v vs] kv j; cbn; try reflexivity. rewrite IH. destruct (last_value V j ks vs); [reflexivity|].
  rewrite find_put. destruct (list_eqb k j); reflexivity.
Qed.
Lemma put_keys : forall k v kv, NoDup (map fst kv) -> NoDup (map fst (put V k v kv)) /\ (forall j, In j (map fst (put V k v kv)) <-> j = k \/ In j (map fst kv)).
Proof.
  intros k v kv. induction kv as [|[k' v'] kv IH]; cbn; intros N.
  - split; [constructor; [intros [] | constructor]|]. intros j. intuition.
  - inversion N as [|? ? N1 N2]; subst. destruct (list_eqb k' k) eqn:E; cbn.
    + apply eqb_list in E. subst k'. split; [constructor; auto|]. intros j. intuition.
    + destruct (IH N2) as [I1 I2]. split; [constructor; auto|].
      * intros X. apply I2 in X. destruct X as [->|X]; [rewrite list_eqb_refl in E; discriminate | contradiction].
      * intros j. rewrite I2. intuition.
Qed.
Lemma puts_keys : forall ks vs kv, NoDup (map fst kv) -> NoDup (map fst (puts ks vs kv)).
Proof. induction ks as [|k ks IH]; intros [|v vs] kv N; cbn; auto. apply IH, put_keys, N. Qed.
End Run.
