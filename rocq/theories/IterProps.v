(** * Theorems about for-in loops over arrays, strings and objects. *)
From Coq Require Import ZArith List Bool Lia.
From Verif Require Import Base FloatModel ListModel ListProofs MapModel MapSpec MapProofs MapProps ExprModel VmModel ExprSpec ExprZs ExprProps
  StmtModel StmtSpec StmtProofs StmtProps IterModel IterSpec IterProofs.
Import ListNotations.
Local Open Scope Z_scope.

(** C55. A for-in loop over a container that its body does not change runs the
    body once for each element, in order, with the variables set from key and
    value of that element, until the elements are used up or the body leaves the
    loop: the runs of the loop are exactly those of [visits] over the entries.
    [R]: everything else a script can do.  Missing: iterators written in the
    script. *)
Theorem C55_visits_in_order_partial :
  forall X (R : rest X) z xs it a b w c w1 k es,
  eval_operand (ISem R) a w = EOk (VRef c) w1 -> iheap w1 c = Some k -> entries k = Some es ->
  (1 <= length xs)%nat -> ~ In it xs ->
  preserves X R (exec_block (ISem R) true b) it (nits w1) c k ->
  forall r', terminates (ISem R) (exec_stmt (ISem R) (SForIn z xs it a b)) w r' <->
  exists r, visits X R (exec_block (ISem R) true b) xs (fun j => set_iter (nits w1) (pos c k (length es) j)) 0 es
              (started X it c k w1) r /\ r' = left_scope X R z r.
Proof.
  intros X R z xs it a b w c w1 k es Ea Hc He Hx Hi Hp r'.
  rewrite (forin_start X R z xs it a b w c w1 k Ea Hc r').
  assert (Hm : mono (ISem R) (exec_block (ISem R) true b)) by apply exec_mono.
  assert (Hh : here X it (nits w1) c k es 0 (started X it c k w1)).
  { unfold started. split; [|split].
    - unfold hidden. cbn [ivars set_var]. rewrite var_eqb_refl. reflexivity.
    - exact Hc.
    - cbn [iters set_var new_iter]. rewrite Nat.eqb_refl. f_equal. apply pos_start. exact He. }
  split.
  - intros (r & (f & Hr) & ->). exists r. split; [|reflexivity].
    apply (loop_visits X R xs it (nits w1) c k es _ Hx Hi He Hp f 0%nat); [lia | exact Hh | exact Hr].
  - intros (r & Hr & ->). exists r. split; [|reflexivity].
    apply while_runs_loop; [apply with_fetch_mono; exact Hm|].
    apply (visits_runs X R xs it (nits w1) c k es _ Hx Hi He Hp 0%nat es); [exact Hr | reflexivity | lia | exact Hh].
Qed.
Print Assumptions C55_visits_in_order_partial.

(** A body that writes its two variables to a log and always ends normally: the
    log grows by exactly the entries of the container, in order. *)
Theorem C55_each_once_partial :
  forall (R : rest (list (ival * ival))) z x y it a b w c w1 k es,
  eval_operand (ISem R) a w = EOk (VRef c) w1 -> iheap w1 c = Some k -> entries k = Some es ->
  x <> y -> it <> x -> it <> y ->
  preserves _ R (exec_block (ISem R) true b) it (nits w1) c k ->
  (forall u, exists u2, terminates (ISem R) (exec_block (ISem R) true b) u (ONorm (ISem R) u2) /\
     iext u2 = iext u ++ [(ivars u (Local x), ivars u (Local y))]) ->
  exists w2, terminates (ISem R) (exec_stmt (ISem R) (SForIn z [x; y] it a b)) w (ONorm (ISem R) (r_pop _ R z w2)) /\
    iext w2 = iext w1 ++ es.
Proof.
  intros R z x y it a b w c w1 k es Ea Hc He Hxy Hx Hy Hp Hb.
  assert (G : forall l j u, exists u2,
     visits _ R (exec_block (ISem R) true b) [x; y] (fun j => set_iter (nits w1) (pos c k (length es) j)) j l u (ONorm (ISem R) u2) /\
     iext u2 = iext u ++ l).
  { induction l as [|(key, v) l IH]; intros j u.
    - exists u. split; [constructor | rewrite app_nil_r; reflexivity].
    - destruct (Hb (give _ [x; y] key v u)) as (u1 & H1 & H2).
      destruct (IH (S j) (set_iter (nits w1) (pos c k (length es) (S j)) u1)) as (u2 & H3 & H4).
      exists u2. split; [eapply vi_next; [exact H1 | left; reflexivity | exact H3]|].
      rewrite H4. cbn [set_iter iext]. rewrite H2, give_ext, <- app_assoc. cbn [app]. do 2 f_equal.
      cbn [give ivars set_var]. rewrite var_eqb_refl, (var_eqb_local y x) by congruence. rewrite var_eqb_refl. reflexivity. }
  destruct (G es 0%nat (started _ it c k w1)) as (u2 & H1 & H2). exists u2. split; [|exact H2].
  apply (C55_visits_in_order_partial _ R z [x; y] it a b w c w1 k es); auto.
  - cbn [length]. lia.
  - cbn [In]. intuition congruence.
  - exists (ONorm (ISem R) u2). split; [exact H1 | reflexivity].
Qed.
Print Assumptions C55_each_once_partial.

(** What the entries are: indices and elements of an array; indices and byte
    values of a string; names and values of an object, in order of first
    insertion since last removal, for every history of the object's map. *)
Theorem C55_entries :
  (forall l i k v, nth_error (numbered l) i = Some (k, v) <-> nth_error l i = Some v /\ k = VInt (Z.of_nat i)) /\
  (forall l, entries (CArr l) = Some (numbered l)) /\
  (forall s, entries (CStr s) = Some (numbered (List.map (fun b => VInt (schar b)) s))) /\
  (forall (os : list (mop (list Z) ival)) l xs, spec_run streqb STR_CAP os [] = Some (l, xs) ->
     exists m, str_run os m_empty = Some (m, xs) /\
       entries (CObj m) = Some (List.map (fun p => (VStr (fst p), snd p)) l)).
Proof.
  split; [intros; apply numbered_nth|]. split; [reflexivity|]. split; [reflexivity|].
  intros os l xs H. destruct (C06_iteration_insertion_order ival os l xs H) as (m & H1 & H2 & _).
  exists m. split; [exact H1|]. cbn [entries]. rewrite H2. reflexivity.
Qed.
Print Assumptions C55_entries.

(** The compiled loop. *)
Theorem C55_machine_partial :
  forall X (R : rest X) foldk good is_call, sound_fold (ISem R) foldk good ->
  forall z xs it a b n lp sw code_ bok kok,
  ok_stmt foldk good bok kok (SForIn z xs it a b) = true ->
  comp_stmt foldk is_call n lp sw (SForIn z xs it a b) = Some code_ ->
  forall w c w1 k es,
  eval_operand (ISem R) a w = EOk (VRef c) w1 -> iheap w1 c = Some k -> entries k = Some es ->
  (1 <= length xs)%nat -> ~ In it xs ->
  preserves X R (exec_block (ISem R) true b) it (nits w1) c k ->
  forall C p bt kt st sc, code_at C p (link (Z.of_nat bt) (Z.of_nat kt) (Z.of_nat p) code_) -> (length sc <= n)%nat ->
  forall r, visits X R (exec_block (ISem R) true b) xs (fun j => set_iter (nits w1) (pos c k (length es) j)) 0 es
              (started X it c k w1) r ->
  does (ISem R) C (St (ISem R) p st w sc) sc (p + length code_) bt kt (left_scope X R z r).
Proof.
  intros X R foldk good is_call HS z xs it a b n lp sw code_ bok kok Ok Ec w c w1 k es Ea Hc He Hx Hi Hp C p bt kt st sc HC Hl r Hr.
  eapply C40_statement_partial; [exact HS | exact Ok | exact Ec | exact HC | exact Hl |].
  apply (C55_visits_in_order_partial X R z xs it a b w c w1 k es); auto. exists r. auto.
Qed.
Print Assumptions C55_machine_partial.

(** A body that does change the array or string: each round takes the element
    with the next index from the container as it then is.  So elements appended
    in the body are visited too, and after the removal of an element in front
    one is skipped.  If the container is deleted the loop ends with an error. *)
Theorem C55_changing_body_partial :
  forall X (R : rest X) z xs it a b w c w1 k,
  eval_operand (ISem R) a w = EOk (VRef c) w1 -> iheap w1 c = Some k -> indexed k = true ->
  (1 <= length xs)%nat -> ~ In it xs ->
  respects X R (exec_block (ISem R) true b) it (nits w1) ->
  keeps_kind X R (exec_block (ISem R) true b) it (nits w1) c ->
  forall r', terminates (ISem R) (exec_stmt (ISem R) (SForIn z xs it a b)) w r' <->
  exists r, rounds X R (exec_block (ISem R) true b) xs c (nits w1) 0 (started X it c k w1) r /\ r' = left_scope X R z r.
Proof.
  intros X R z xs it a b w c w1 k Ea Hc Hk Hx Hi Hr Hkk r'.
  rewrite (forin_start X R z xs it a b w c w1 k Ea Hc r').
  assert (Hm : mono (ISem R) (exec_block (ISem R) true b)) by apply exec_mono.
  assert (Hh : at_ X it (nits w1) c 0 (started X it c k w1)).
  { unfold started. split; [|split].
    - unfold hidden. cbn [ivars set_var]. rewrite var_eqb_refl. reflexivity.
    - cbn [iters set_var new_iter]. rewrite Nat.eqb_refl. destruct k; [reflexivity | reflexivity | discriminate].
    - intros k2 H. change (iheap w1 c = Some k2) in H. congruence. }
  split.
  - intros (r & (f & Er) & ->). exists r. split; [|reflexivity].
    apply (loop_rounds X R xs it (nits w1) c _ Hx Hi Hr Hkk f 0%nat); [exact Hh | | exact Er].
    change (iheap w1 c <> None). congruence.
  - intros (r & Er & ->). exists r. split; [|reflexivity].
    apply while_runs_loop; [apply with_fetch_mono; exact Hm|].
    apply (rounds_runs X R xs it (nits w1) c _ Hx Hi Hr Hkk 0%nat); [exact Er | exact Hh].
Qed.
Print Assumptions C55_changing_body_partial.

(** False in general: a body that erases the current name of an object.  The
    iterator then reads the [next] pointer of a freed node. *)
Theorem C55_erase_current_refuted :
  forall X (R : rest X) z xs it a b w c w1 (os : list (mop (list Z) ival)) key v l obs m m',
  spec_run streqb STR_CAP os [] = Some ((key, v) :: l, obs) -> str_run os m_empty = Some (m, obs) ->
  m_erase strcmp (fun n => n) m key = Base.Ret m' tt ->
  eval_operand (ISem R) a w = EOk (VRef c) w1 -> iheap w1 c = Some (CObj m) ->
  (1 <= length xs)%nat -> ~ In it xs ->
  (exists w2, terminates (ISem R) (exec_block (ISem R) true b) (give X xs (VStr key) v (started X it c (CObj m) w1)) (ONorm (ISem R) w2) /\
     hidden X it (nits w1) w2 /\ iters w2 (nits w1) = Some (it_start c (CObj m)) /\ iheap w2 c = Some (CObj m')) ->
  exists w', terminates (ISem R) (exec_stmt (ISem R) (SForIn z xs it a b)) w (OErr (ISem R) w') /\ iub w' = true.
Proof.
  intros X R z xs it a b w c w1 os key v l obs m m' Hs Hrun Her Ea Hc Hx Hi (w2 & Hb & Hh2 & Hi2 & Hc2).
  destruct (str_rep ival os _ _ Hs) as (m0 & Hm & Rm). unfold str_run in Hrun. rewrite Hrun in Hm. inversion Hm; subst m0.
  pose proof (iterate_ok _ _ _ _ _ str_cap_ok m _ Rm) as Hit.
  assert (He : entries (CObj m) = Some (List.map (fun p => (VStr (fst p), snd p)) ((key, v) :: l))).
  { cbn [entries]. rewrite Hit. reflexivity. }
  destruct Rm as (E & T & Rp & HE). destruct E as [|e E]; [discriminate|].
  assert (Hf : first (ring_of m) = Some (e_id _ _ e)).
  { rewrite (inv_first _ _ (r_inv _ _ _ _ _ _ _ Rp)). reflexivity. }
  assert (Hkey : fst (fst e) = key).
  { cbn [List.map] in HE. injection HE as H1 _. unfold e_kv in H1. rewrite <- H1. reflexivity. }
  assert (Hn : next (heap (ring_of m')) (e_id _ _ e) = None).
  { eapply (erase_frees (list Z) ival strcmp 16 (fun n => n) STR_CAP); eauto using strcmp_eq, strcmp_opp, strcmp_trans.
    - apply slot16.
    - apply str_cap_ok.
    - apply slot16.
    - left. reflexivity.
    - rewrite Hkey. exact Her. }
  set (w' := ubw w2). exists w'. split; [|reflexivity].
  apply (forin_start X R z xs it a b w c w1 (CObj m) Ea Hc). exists (OErr (ISem R) w'). split; [|reflexivity].
  apply while_runs_loop; [apply with_fetch_mono; apply exec_mono|].
  assert (Hh : here X it (nits w1) c (CObj m) (List.map (fun p => (VStr (fst p), snd p)) ((key, v) :: l)) 0 (started X it c (CObj m) w1)).
  { unfold started. split; [|split].
    - unfold hidden. cbn [ivars set_var]. rewrite var_eqb_refl. reflexivity.
    - exact Hc.
    - cbn [iters set_var new_iter]. rewrite Nat.eqb_refl. f_equal. apply pos_start. exact He. }
  eapply wr_post_error with (w2 := w2) (r1 := ONorm (ISem R) w2).
  - rewrite (here_more X R it (nits w1) c (CObj m) _ He 0%nat _ Hh) by (cbn [List.map length]; lia). reflexivity.
  - eapply fetched_term; [|exact Hb].
    apply (here_fetch X R xs it (nits w1) c (CObj m) _ Hx He 0%nat _ _ _ Hh). reflexivity.
  - left. reflexivity.
  - eapply advance_err; [exact Hh2 | exact Hi2 |]. cbn [it_start it_next]. rewrite Hc2, Hf, Hn. reflexivity.
Qed.
Print Assumptions C55_erase_current_refuted.

(** False in general: sixteen variables.  The number of return values has four
    bits, so [_get] returns nothing and the store instruction takes its values
    from below the operand stack. *)
Theorem C55_sixteen_variables_refuted :
  forall S foldk is_call n z xs it x b C, length xs = 16%nat ->
  comp_fun foldk is_call n (one (SForIn z xs it (AVar x) b)) = Some C ->
  forall w w1 w2 w3 vs, itinit S (vget S w x) (lvar S (Local it)) w = EOk tt w1 ->
  more S it w1 = EOk true w2 -> ask S it ItGet 0 w2 = EOk vs w3 ->
  exists s, steps S C (St S 0 [] w []) s /\ step S C s = Stuck S.
Proof.
  intros S foldk is_call n z xs it x b C Hl E w w1 w2 w3 vs Hi Hm Hg.
  do 16 (destruct xs as [|? xs]; [discriminate|]). destruct xs; [|discriminate].
  assert (Hs : exists off rest_, C = [PushScope z; LoadVar x; PushVar (Local it); ItInit;
     LoadVar (Local it); ItLoad ItEnd; ItCall 1 false; Jt NoMark off; LoadVar (Local it); ItLoad ItGet; ItCall 0 false]
     ++ List.map (fun x => PushVar (Local x)) [n0; n1; n2; n3; n4; n5; n6; n7; n8; n9; n10; n11; n12; n13; n14; n15]
     ++ Store 16 true :: rest_).
  { unfold comp_fun, one in E.
    change (comp_stmts foldk is_call n false false (SCons (SForIn z [n0; n1; n2; n3; n4; n5; n6; n7; n8; n9; n10; n11; n12; n13; n14; n15] it (AVar x) b) SNil)) with
      (match (match comp_block foldk is_call (Datatypes.S n) true false true b with
              | Some cb => Some (forin_code z [n0; n1; n2; n3; n4; n5; n6; n7; n8; n9; n10; n11; n12; n13; n14; n15] it [LoadVar x] cb)
              | None => None end) with Some c => Some (c ++ []) | None => None end) in E.
    destruct (comp_block foldk is_call (Datatypes.S n) true false true b) as [cb|]; [|discriminate].
    apply (f_equal (fun o => match o with Some c => c | None => [] end)) in E. cbv beta iota in E. rewrite <- E. clear E.
    unfold forin_code, forin_loop, it_get, it_ask. cbv zeta.
    match goal with |- context [link ?q1 ?q2 0 _] => generalize q1 q2; intros lb lk end.
    match goal with |- context [Jt NoMark ?o] => generalize o; intros off end.
    match goal with |- context [Jmp NoMark ?o] => generalize o; intros off2 end.
    exists off. cbn [app List.map length Nat.modulo Nat.divmod Nat.sub snd fst link]. eexists. reflexivity. }
  destruct Hs as (off & rest_ & ->). clear E.
  unfold more, ask in *.
  destruct (itload S ItEnd (vget S w1 (Local it)) w1) as [f1 u1|] eqn:L1; cbn [ebind] in Hm; [|discriminate].
  destruct (itcall S 1 f1 u1) as [vs1 u2|] eqn:L2; cbn [ebind] in Hm; [|discriminate].
  destruct (itload S ItGet (vget S w2 (Local it)) w2) as [f2 u3|] eqn:L3; cbn [ebind] in Hg; [|discriminate].
  destruct (itcall S 0 f2 u3) as [vs2 u4|] eqn:L4; cbn [ebind] in Hg; [|discriminate].
  unfold truth in Hm. set (b1 := fit S 1 vs1) in *.
  assert (Hb1 : exists v, b1 = [v]).
  { unfold b1, fit. destruct vs1 as [|v vs1]; [exists (undefv S) | exists v]; reflexivity. }
  destruct Hb1 as (v & Hb1). rewrite Hb1 in Hm. cbn [hd] in Hm.
  destruct (vbool S v) as [[|]|] eqn:Hv; cbn [ebind negb] in Hm; inversion Hm; subst w2.
  eexists. split.
  - eapply steps_cons; [reflexivity|]. eapply steps_cons; [reflexivity|]. eapply steps_cons; [reflexivity|].
    eapply steps_cons; [unfold step; cbn [pc sk wd scs nth_error app]; rewrite Hi; reflexivity|].
    eapply steps_cons; [reflexivity|].
    eapply steps_cons; [unfold step; cbn [pc sk wd scs nth_error app]; rewrite L1; reflexivity|].
    eapply steps_cons; [unfold step; cbn [pc sk wd scs nth_error app]; rewrite L2; cbn [of_ev]; fold b1; rewrite Hb1; reflexivity|].
    eapply steps_cons; [unfold step; cbn [pc sk wd scs nth_error app rev List.map]; rewrite Hv; reflexivity|].
    eapply steps_cons; [reflexivity|].
    eapply steps_cons; [unfold step; cbn [pc sk wd scs nth_error app]; rewrite L3; reflexivity|].
    eapply steps_cons; [unfold step; cbn [pc sk wd scs nth_error app]; rewrite L4; reflexivity|].
    change (fit S 0 vs2) with (@nil (V S)). cbn [List.map rev app].
    do 16 (eapply steps_cons; [unfold step; cbn [pc sk wd scs nth_error]; reflexivity|]). apply steps_refl.
  - reflexivity.
Qed.
Print Assumptions C55_sixteen_variables_refuted.

(** ** A concrete language: one function that writes its two arguments to a log,
    and one that removes a name from the object with number 0. *)
Definition logworld := iworld (list (ival * ival)).
Definition slot_val (w : logworld) (s : ival + (var + Z)) : ival :=
  match s with inl v => v | inr (inl x) => ivars w x | inr (inr _) => VUndef end.
Definition log_prim (p : Z) (args : list (ival + (var + Z))) (w : logworld) : ev logworld ival :=
  match p, args with
  | 0, [x; y] => EOk VUndef (mkiw (ivars w) (iheap w) (iters w) (nits w) (iub w) (iext w ++ [(slot_val w x, slot_val w y)]))
  | 1, [x] =>
      match iheap w 0%nat, slot_val w x with
      | Some (CObj m), VStr k =>
          match m_erase strcmp (fun n => n) m k with
          | Base.Ret m' _ => EOk VUndef (mkiw (ivars w) (fun c => if Nat.eqb c 0 then Some (CObj m') else iheap w c)
                               (iters w) (nits w) (iub w) (iext w))
          | _ => EErr w
          end
      | Some (CArr l), v =>
          EOk VUndef (mkiw (ivars w) (fun c => if Nat.eqb c 0 then Some (CArr (l ++ [v])) else iheap w c)
                               (iters w) (nits w) (iub w) (iext w))
      | _, _ => EErr w
      end
  | _, _ => EErr w
  end.
Definition LogR : rest (list (ival * ival)) := {|
  r_k := fun k => match k with KInt z => VInt z | KBool b => VBool b | KStr s => VStr s | KFloat _ => VOther 0 end;
  r_fun := VOther; r_type := VOther;
  r_bin := fun _ _ _ w => EErr w; r_un := fun _ _ w => EErr w; r_inst := fun _ _ w => EErr w;
  r_incdec := fun _ _ _ w => EErr w; r_assign := fun _ _ _ w => EErr w;
  r_prim := log_prim; r_lprim := fun _ _ w => EErr w; r_case := fun _ _ w => EErr w; r_pop := fun _ w => w |}.
Definition nofold (o : bop) (k1 k2 : const) : fold := FoldErr.
Definition logw (k : container) : logworld :=
  mkiw (fun x => match x with Global 0 => VRef 0 | _ => VUndef end) (fun c => if Nat.eqb c 0 then Some k else None)
    (fun _ => None) 0 false [].
Definition bare_ (n : nat) : expr := Expr TgNil (AVar (Local n)) ONil TNone.
(** for(x,y in g){ log(x,y); } *)
Definition log_body : block :=
  Blk 2 (one (SExprs (ECons (Expr TgNil (APrim 0 (ECons (bare_ 0) (ECons (bare_ 1) ENil))) ONil TNone) ENil))).
Definition log_loop : stmt := SForIn 1 [0%nat; 1%nat] 2 (AVar (Global 0)) log_body.
Definition ran (s : stmt) (k : container) (fuel : nat) : option (list (ival * ival) * bool) :=
  match comp_fun nofold (fun _ => true) 1 (one s) with
  | Some c =>
      match exec (ISem LogR) fuel c (St (ISem LogR) 0 [] (logw k) []) with
      | Done _ w _ => Some (iext w, true)
      | Failed _ w => Some (iext w, false)
      | _ => None
      end
  | None => None
  end.
Definition obj_ : option (map (list Z) ival * list (mobs (list Z) ival)) :=
  str_run [MSet [98] (VInt 1); MSet [97] (VInt 2); MSet [99] (VBool true); MErase [98]; MSet [98] (VInt 4)] m_empty.
Example C55_case :
  ran log_loop (CArr [VInt 7; VStr [65]; VNull]) 200 = Some ([(VInt 0, VInt 7); (VInt 1, VStr [65]); (VInt 2, VNull)], true) /\
  ran log_loop (CStr [65; 200]) 200 = Some ([(VInt 0, VInt 65); (VInt 1, VInt (-56))], true) /\
  ran log_loop (CArr []) 200 = Some ([], true) /\
  match obj_ with
  | Some (m, _) => ran log_loop (CObj m) 200
  | None => None
  end = Some ([(VStr [97], VInt 2); (VStr [99], VBool true); (VStr [98], VInt 4)], true).
Proof. repeat split; vm_compute; reflexivity. Qed.
(** for(x,y in g){ log(x,y); erase(x); }: the first round is the last. *)
Definition erase_loop : stmt :=
  SForIn 1 [0%nat; 1%nat] 2 (AVar (Global 0))
    (Blk 2 (SCons (SExprs (ECons (Expr TgNil (APrim 0 (ECons (bare_ 0) (ECons (bare_ 1) ENil))) ONil TNone) ENil))
      (one (SExprs (ECons (Expr TgNil (APrim 1 (ECons (bare_ 0) ENil)) ONil TNone) ENil))))).
Example C55_erase_case :
  match obj_ with Some (m, _) => ran erase_loop (CObj m) 200 | None => None end = Some ([(VStr [97], VInt 2)], false).
Proof. vm_compute. reflexivity. Qed.
(** The body of the first loop meets the hypotheses, for every container. *)
Lemma log_body_runs : forall f (w : logworld), exec_block (ISem LogR) true log_body f w =
  Some (ONorm (ISem LogR) (mkiw (ivars w) (iheap w) (iters w) (nits w) (iub w) (iext w ++ [(ivars w (Local 0), ivars w (Local 1))]))).
Proof. reflexivity. Qed.
Example C55_body_case : forall it n c k, preserves _ LogR (exec_block (ISem LogR) true log_body) it n c k.
Proof.
  intros it n c k. assert (G : forall w r, terminates (ISem LogR) (exec_block (ISem LogR) true log_body) w r ->
    forall w2, r = ONorm (ISem LogR) w2 \/ r = OCont (ISem LogR) w2 -> ivars w2 = ivars w /\ iters w2 = iters w /\ iheap w2 = iheap w).
  { intros w r (f & E) w2 H. rewrite log_body_runs in E. inversion E; subst. destruct H as [H|H]; inversion H; subst. auto. }
  split.
  - intros w r w2 Hh Ht Hr. destruct (G w r Ht w2 Hr) as (G1 & G2 & G3). unfold hidden in *. rewrite G1, G2. auto.
  - intros w r w2 Hh Hc Ht Hr. destruct (G w r Ht w2 Hr) as (G1 & G2 & G3). rewrite G3. exact Hc.
Qed.
(** ... and so the log of the loop is the list of entries, for every container. *)
Example C55_log_case : forall k es, entries k = Some es ->
  exists w2, terminates (ISem LogR) (exec_stmt (ISem LogR) log_loop) (logw k) (ONorm (ISem LogR) w2) /\ iext w2 = es.
Proof.
  intros k es He.
  destruct (C55_each_once_partial LogR 1 0 1 2 (AVar (Global 0)) log_body (logw k) 0 (logw k) k es) as (w2 & H1 & H2);
    try reflexivity; try discriminate.
  - exact He.
  - apply C55_body_case.
  - intros u. eexists. split; [exists 0%nat; apply log_body_runs | reflexivity].
  - exists w2. split; [exact H1 | exact H2].
Qed.
