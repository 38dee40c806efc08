(** C94, guarded: the symbols that instructions load are alive. *)
From Coq Require Import ZArith List Bool Lia PeanoNat.
From Verif Require Import ScopeModel ScopeSpec ScopeProofs ScopeStepProofs ScopeSessionProofs ScopeFactProofs
  ScopeLiveProofs ScopeProps.
Import ListNotations.
Open Scope nat_scope.

(** If no block that is not the body of a loop is closed with functions and without variables
    ([w_keep], ScopeSpec.v), every function symbol loaded by the code of the last script or by the
    code of any function compiled since the start is a symbol of a scope that was not deleted. *)
Theorem C94_symbols_live_partial : forall ty ls,
  defined ty ls -> w_keep (meant ty ls) = true ->
  (forall d, In (LoadFunction d) (e_code (after ty ls)) -> live (after ty ls) d) /\
  (forall i fn d, In (i, Some fn) (e_funs (after ty ls)) -> In (LoadFunction d) (fn_code fn) ->
     live (after ty ls) d).
Proof. intros ty ls D K. exact (symbols_live ty ls K D). Qed.

(** A block with a variable and a function, and a function whose block has another one; in a
    second script the functions compiled by the first are still there. *)
Example C94_case :
  let ls := [[OOpen; OVar 1%Z; OFun 2%Z []; OEnd; OUse 2%Z; OClose false;
              OFun 3%Z []; OOpen; OVar 1%Z; OFun 4%Z []; OEnd; OUse 4%Z; OClose false; OEnd];
             [OUse 3%Z]] in
  results no_types ls = [CDone; CDone] /\ w_keep (meant no_types ls) = true /\
  e_code (after no_types ls) = [LoadFunction 2] /\
  In (2, Some (mkfunc [3] [LoadFunction 4])) (e_funs (after no_types ls)) /\
  map y_id (live_syms (after no_types ls)) = [2; 3; 4].
Proof. vm_compute. repeat split. auto. Qed.

Print Assumptions C94_symbols_live_partial.
