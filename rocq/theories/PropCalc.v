(** Properties C11 and C31: arithmetic expressions and loops. *)
Require Import String Ascii List ZArith Bool Lia.
Require Import PArith FMapPositive.
From Verif Require Import Base CppString Num Token Value State Builtins Eval LispTop SpecRun SpecVal SpecNum SpecList SpecForm SpecCalc
  RunProofs ErrProofs FormProofs CalcProofs.
Import ListNotations.

(** ** C11: arithmetic expressions *)
Theorem C11_value : forall st s p z, denotes st s p z -> usual_operators st s ->
  exists v st', evals p s st (Val (Some v)) st' /\ is_int v z /\ changes_only no_var st st'.
Proof. exact calc_value. Qed.
Print Assumptions C11_value.
Theorem C11_overflow : forall st s p, overflows st s p -> usual_operators st s -> exists st', evals p s st (Undef UBOverflow) st'.
Proof. exact calc_overflow. Qed.
Print Assumptions C11_overflow.
(** The sum of i, 2 times 3 times 4 and minus 5, with i = 0, is 19; 65536 times 65536 does not fit. *)
Example C11_ex :
  let st := with_code [(91%positive, [sym_ 71 $"+"; sym_ 72 $"i"; code_ 73 92; code_ 74 93]);
                       (92%positive, [sym_ 71 $"*"; int_ 72 2; int_ 73 3; int_ 74 4]); (93%positive, [sym_ 71 $"-"; int_ 72 5]);
                       (94%positive, [sym_ 71 $"*"; int_ 72 65536; code_ 73 95]); (95%positive, [sym_ 71 $"*"; int_ 72 65536; int_ 73 1])] code_st in
  usual_operators st main_sid /\ denotes st main_sid (code_ 1 91) 19 /\ overflows st main_sid (code_ 2 94).
Proof.
  set (st := with_code _ _). cbv zeta.
  assert (SE : exists i v, sees st main_sid $"i" (Some (P i (OVar v))) /\ is_int v 0).
  { eexists. eexists. split; [apply se_own; [apply main_here; vm_compute; exact I|vm_compute; reflexivity]|split; reflexivity]. }
  split; [repeat split; apply std_main; vm_compute; repeat split; reflexivity|]. split.
  - change 19%Z with (fold_left Z.add [24%Z; (-5)%Z] 0%Z).
    eapply dn_operation; [vm_compute; reflexivity|split; reflexivity|left; split; reflexivity| |discriminate|cbn; unfold fits; lia].
    destruct SE as (i & v & SE & IV). apply da_cons; [eapply dn_variable; [eexists; eexists; split; [reflexivity|split; reflexivity]|exact SE|exact IV]|].
    apply da_cons; [|apply da_cons; [|apply da_nil]].
    + change 24%Z with (fold_left Z.mul [3%Z; 4%Z] 2%Z). eapply dn_operation; [vm_compute; reflexivity|split; reflexivity|right; right; split; reflexivity| |discriminate|cbn; unfold fits; lia].
      repeat (apply da_cons; [apply dn_number; split; reflexivity|]). apply da_nil.
    + change (-5)%Z with (- (5))%Z. eapply dn_negation; [vm_compute; reflexivity|split; reflexivity|apply dn_number; split; reflexivity|unfold fits; lia].
  - eapply (ov_here _ _ _ _ _ _ _ Z.mul _ 65536%Z [65536%Z]); [vm_compute; reflexivity|split; reflexivity|right; right; split; reflexivity| |cbn; unfold fits; lia].
    apply da_cons; [apply dn_number; split; reflexivity|]. apply da_cons; [|apply da_nil].
    change 65536%Z with (fold_left Z.mul [1%Z] 65536%Z). eapply dn_operation; [vm_compute; reflexivity|split; reflexivity|right; right; split; reflexivity| |discriminate|cbn; unfold fits; lia].
    repeat (apply da_cons; [apply dn_number; split; reflexivity|]). apply da_nil.
Qed.

(** ** C31: while *)
Theorem C31_rounds : forall st s p tok c b, form st p $"while" tok [c; b] -> standard st s $"while" -> Forall plain [c; b] -> forall r st',
  evals p s st (Val r) st' <-> exists n, rounds_of c b s n (Some vundef) (noted st s tok) r st'.
Proof. exact while_value. Qed.
Print Assumptions C31_rounds.
Theorem C31_counting : forall st s t x p c b tok N k i v, counting_loop st p x N tok c b -> (forall name, In name [$"while"; $"<"; $"setf"; $"+"] -> standard st s name) ->
  own_variable st s t x [$"while"; $"<"; $"setf"; $"+"] -> var_at st t x = Some (P i (OVar v)) -> is_int v k -> leaving st s false ->
  (k <= N)%Z -> fits k -> fits N ->
  exists r st', evals p s st (Val r) st' /\ rounds_of c b s (Z.to_nat (N - k)) (Some vundef) (noted st s tok) r st' /\
    (exists j w, var_at st' t x = Some (P j (OVar w)) /\ is_int w N) /\ changes_only (one_var t x) st st'.
Proof. exact loop_counts. Qed.
Print Assumptions C31_counting.
Example C31_ex : exists tok c b i v, counting_loop code_st (code_ 1 75) $"i" 3 tok c b /\
  (forall name, In name [$"while"; $"<"; $"setf"; $"+"] -> standard code_st main_sid name) /\
  own_variable code_st main_sid main_sid $"i" [$"while"; $"<"; $"setf"; $"+"] /\
  var_at code_st main_sid $"i" = Some (P i (OVar v)) /\ is_int v 0 /\ leaving code_st main_sid false.
Proof.
  assert (SE : scope_exists code_st main_sid) by (apply main_here; vm_compute; exact I).
  exists None, (code_ 72 76), (code_ 73 77). eexists. eexists.
  split; [split; [apply (form_by _ _ _ 71); vm_compute; reflexivity|]|].
  { exists 72%positive, 76%positive, 73%positive, 77%positive, 73%positive, 78%positive, None, None, None, (sym_ 72 $"i"), (sym_ 72 $"i"), (sym_ 72 $"i"), (int_ 73 3), (int_ 73 1).
    do 4 eexists. split; [reflexivity|]. split; [apply (form_by _ _ _ 71); vm_compute; reflexivity|]. split; [reflexivity|].
    split; [apply (form_by _ _ _ 71); vm_compute; reflexivity|]. split; [apply (form_by _ _ _ 71); vm_compute; reflexivity|].
    repeat (split; [exists 72%positive; eexists; repeat split|]). split; [reflexivity|]. split; [split; reflexivity|]. split; [reflexivity|split; reflexivity]. }
  split. { intros name [<-|[<-|[<-|[<-|[]]]]]; apply std_main; vm_compute; repeat split; reflexivity. }
  split; [|split; [vm_compute; reflexivity|split; [split; reflexivity|]]].
  - split; [discriminate|]. split; [discriminate|]. split; [discriminate|]. split; [cbn; intuition discriminate|].
    assert (G : match scope_at code_st main_sid with Some sc => s_global sc = main_sid | None => False end) by (vm_compute; reflexivity).
    destruct (scope_at code_st main_sid) as [sc|] eqn:E; [|contradiction]. exists sc. rewrite G. split; [reflexivity|]. split; [exact SE|].
    split; [eapply as_own; [exact SE|vm_compute; reflexivity]|]. split; [|left; reflexivity].
    assert (M : match var_at code_st main_sid $"###modules###" with Some (P _ (OScope ms)) => ms <> main_sid | _ => True end) by (vm_compute; discriminate).
    intros i ms V. rewrite V in M. exact M.
  - assert (G : match scope_at code_st main_sid with Some sc => s_inret sc = false | None => False end) by (vm_compute; reflexivity).
    unfold leaving. destruct (scope_at code_st main_sid) as [sc|] eqn:E; [|contradiction]. exists sc. auto.
Qed.
