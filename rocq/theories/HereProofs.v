(** break, platform, need-l-value and Math-Pi. *)
Require Import String Ascii List ZArith Bool Lia.
Require Import PArith FMapPositive.
From Coq Require Import SpecFloat.
From Verif Require Import Base CppString Num Token Value State Show ScopeOps Builtins Table Eval LispTop Debugger SpecLex SpecParse SpecRun SpecVal SpecNum SpecList SpecForm SpecText SpecIo SpecDebug SpecMix SpecShow SpecPlace SpecMath.
From Verif Require Import Wf RunProofs TextProofs StrProofs BuiltinProofs ListProofs NumProofs ErrProofs FormProofs IoProofs MixProofs SmallProofs PromptProofs ShowProofs PlaceProofs.
Import ListNotations.

Lemma stack_out : forall n s t st, stack_of n s (with_out t st) = stack_of n s st.
Proof.
  induction n as [|n IH]; intros s t st; [reflexivity|]. cbn [stack_of]. change (get_scope s (with_out t st)) with (get_scope s st). destruct (get_scope s st) as [sc| | | |]; try reflexivity.
  cbn [obind]. destruct (s_prev sc) as [p|]; [|reflexivity]. rewrite IH. reflexivity.
Qed.
Theorem break_shows : forall args s st d t, fine_frames st s -> stack_text st d s d t ->
  exists r, builtin_call $"break" args s st (Val (Some r))
    (wrote ($"break -> call stack:" ++ [c_nl] ++ t ++ [c_nl] ++ $"Warning: can not break, because no debugger support availabe!" ++ [c_nl]) st) /\ v_ty r = TUndef.
Proof.
  intros args s st d t FF ST. exists vundef. split; [|reflexivity]. apply (builtin_calls 1 $"break" BBreak); [vm_compute; reflexivity| |discriminate].
  destruct (dump_is _ d s d t ST FF _ (Nat.le_refl _)) as (scs & ES & LE & DL).
  cbn [call_builtin]. unfold b_break. unfold bind at 1, write_line, write_out at 1. unfold bind at 1, reads at 1.
  assert (G : call_stack s (with_out (st_out st ++ ($"break -> call stack:" ++ [c_nl])) st) = Val scs) by (unfold call_stack; rewrite <- ES; rewrite stack_out; reflexivity).
  rewrite G. unfold bind at 1, lift at 1. rewrite LE, DL, app_nil_r. unfold bind at 1, write_out at 1. unfold bind at 1. change (r_dbg (run 1) (EvBreak s)) with (write_line $"Warning: can not break, because no debugger support availabe!"). unfold write_line, write_out, some, ret.
  unfold wrote. cbn [with_out st_out]. rewrite <- !app_assoc. reflexivity.
Qed.
(** With a debugger attached. *)
Theorem break_stops : forall f args s sc st d t, builtin_fn $"break" = Some f -> scope_at st s = Some sc -> fine_frames st s -> stack_text st d s d t ->
  forall o st', debug_calls f args s st o st' <->
    exists o1, at_prompt false (s_global sc) s s [] (wrote ($"break -> call stack:" ++ [c_nl] ++ t ++ [c_nl]) st) o1 st' /\
      o = match o1 with Val _ => Val (Some vundef) | Throw e => Throw e | Undef u => Undef u | Unmod w => Unmod w | NoFuel => NoFuel end.
Proof.
  intros f args s sc st d t BF X FF ST o st'. destruct (dump_is _ d s d t ST FF _ (Nat.le_refl _)) as (scs & ES & LE & DL).
  set (st1 := wrote ($"break -> call stack:" ++ [c_nl] ++ t ++ [c_nl]) st).
  assert (FC : fn_code f = CBuiltin BBreak) by (vm_compute in BF; injection BF as <-; reflexivity).
  assert (K : forall n, r_call (drun (S (S n))) f args s st = (let! r := dbg_loop (drun n) n false (s_global sc) s s [] in some vundef) st1).
  { intro n. change (r_call (drun (S (S n))) f args s st) with (call (drun (S n)) f args s st). unfold call. rewrite FC. cbn [call_builtin]. unfold b_break. unfold bind at 1, write_line, write_out at 1. unfold bind at 1, reads at 1.
    assert (G : call_stack s (with_out (st_out st ++ ($"break -> call stack:" ++ [c_nl])) st) = Val scs) by (unfold call_stack; rewrite <- ES; rewrite stack_out; reflexivity).
    rewrite G. unfold bind at 1, lift at 1. rewrite LE, DL, app_nil_r. unfold bind at 1, write_out at 1. unfold bind at 1. change (r_dbg (drun (S n)) (EvBreak s)) with (stop_loop (drun n) n s).
    assert (W : with_out (st_out (with_out (st_out st ++ $"break -> call stack:" ++ [c_nl]) st) ++ t ++ [c_nl]) (with_out (st_out st ++ $"break -> call stack:" ++ [c_nl]) st) = st1).
    { unfold st1, wrote. cbn [with_out st_out]. rewrite <- !app_assoc. reflexivity. }
    rewrite W. unfold stop_loop, global_of, bind, reads. assert (GS : get_scope s st1 = Val sc) by (apply get_at; exact X). rewrite GS. unfold ret.
    destruct (dbg_loop (drun n) n false (s_global sc) s s [] st1) as [[?|?|?|?|] ?]; reflexivity. }
  split.
  - intros (n & H & N). destruct (Nat.le_gt_cases n 1) as [L|L].
    + exfalso. destruct n as [|[|n]]; [injection H as H _; congruence| |lia].
      assert (Z : r_call (drun 1) f args s st = (NoFuel, snd (r_call (drun 1) f args s st))).
      { change (r_call (drun 1) f args s st) with (call (drun 0) f args s st). unfold call. rewrite FC. cbn [call_builtin]. unfold b_break. unfold bind at 1 6, write_line, write_out at 1 3. unfold bind at 1 5, reads at 1 2.
        assert (G : call_stack s (with_out (st_out st ++ ($"break -> call stack:" ++ [c_nl])) st) = Val scs) by (unfold call_stack; rewrite <- ES; rewrite stack_out; reflexivity).
        rewrite G. unfold bind, lift. rewrite LE, DL. reflexivity. }
      rewrite Z in H. injection H as H _. congruence.
    + destruct n as [|[|n]]; [lia|lia|]. rewrite K in H. unfold bind in H. destruct (dbg_loop (drun n) n false (s_global sc) s s [] st1) as [o1 st2] eqn:E. exists o1. split.
      * exists n. split; [|intros ->; injection H as <- _; congruence]. destruct o1; injection H as <- <-; exact E.
      * destruct o1; injection H as <- <-; reflexivity.
  - intros (o1 & (n & H & N) & ->). exists (S (S n)). split; [|destruct o1; congruence]. rewrite K. unfold bind. rewrite H. destruct o1; reflexivity.
Qed.
Theorem platform_is : forall args s st, heap_numbered st -> exists a b c, builtin_list $"platform" args s st [P a (OString $"UNIX"); P b (OString $"C++"); P c (OString $"64bit")].
Proof.
  intros args s st [H1 H2]. exists (st_nid st), (Pos.succ (st_nid st)), (Pos.succ (Pos.succ (st_nid st))).
  eexists. eexists. split; [apply (builtin_calls 0 $"platform" BPlatform); [vm_compute; reflexivity| |discriminate]; reflexivity|].
  split; [exists (st_nloc st); split; [destruct (vec_at st (st_nloc st)) as [x|] eqn:X; [specialize (H1 _ _ X); lia|reflexivity]|split; [split; [reflexivity|split; [reflexivity|]]|reflexivity]; unfold vec_at; cbn; apply PositiveMap.gss]|].
  split.
  - unfold only_adds. repeat split; unfold vec_at, dict_at in *; cbn [st_vecs with_nloc with_vecs with_nid st_nloc st_dicts] in *; auto.
    intros m ds X. assert (Y := H1 m ds X). rewrite PositiveMap.gso by lia. exact X.
  - split.
    + intros m ds X. unfold vec_at in X. cbn [st_vecs with_nloc with_vecs with_nid st_nloc] in *. rewrite find_add in X. destruct (Pos.eqb_spec m (st_nloc st)); [lia|]. specialize (H1 _ _ X). lia.
    + intros m d X. specialize (H2 _ _ X). cbn. lia.
Qed.
Theorem need_is : forall s st sc, scope_at st s = Some sc -> builtin_pure $"need-l-value" [] s st (fun r => is_bool r (s_needlv sc)).
Proof.
  intros s st sc X. exists (vbool (s_needlv sc)). split; [|split; reflexivity]. apply (builtin_calls 0 $"need-l-value" BNeedLValue); [vm_compute; reflexivity| |discriminate].
  cbn [call_builtin]. unfold b_needlvalue, wrap0, check_args. cbn [length Nat.eqb negb]. unfold bind, ret, reads, some. rewrite (get_at _ _ _ X). reflexivity.
Qed.
Theorem pi_is : forall s st, builtin_pure $"Math-Pi" [] s st (fun r => exists d n q, is_dbl r d /\ proper d /\ fraction d n q /\
  (2 * Z.abs (n * 10 ^ 30 - 3141592653589793238462643383279 * q) <= 10 ^ 30)%Z /\ (2 ^ 52 <= n < 2 ^ 53)%Z).
Proof.
  intros s st. exists (vdouble pi). split.
  - apply (builtin_calls 0 $"Math-Pi" BMathPi); [vm_compute; reflexivity| |discriminate]. reflexivity.
  - exists pi, 7074237752028440%Z, (2 ^ 51)%Z. split; [split; reflexivity|]. split; [vm_compute; split; [reflexivity|intro H; exfalso; apply H; reflexivity]|]. split; [vm_compute; split; reflexivity|]. split; [vm_compute; discriminate|vm_compute; split; [discriminate|reflexivity]].
Qed.
(** ** Cases for the theorems *)
Lemma ex_frames : fine_frames fresh main_sid /\ exists t, stack_text fresh 1 main_sid 1 t.
Proof.
  assert (PR : printable fresh main_sid) by (apply main_scope; vm_compute; repeat split; try discriminate; intuition discriminate).
  split; [apply (printable_stack _ _ PR)|]. eexists. eapply sk_one; [vm_compute; reflexivity|reflexivity|right; split; reflexivity].
Qed.
Lemma ex_break : exists r st', runs false false ($"(defn f (x) (break))" ++ [c_nl] ++ $"(f 1)") $"main" fresh (Val r) st' /\
  st_out st' = $"break -> call stack:" ++ [c_nl] ++ $"       1 name=<main>                              lineno=2    module=main" ++ [c_nl] ++
    $"-->    2 name=f                                   lineno=1    module=main" ++ [c_nl; c_nl] ++ $"Warning: can not break, because no debugger support availabe!" ++ [c_nl].
Proof. eexists. eexists. split; [apply (runs_by 60); [vm_compute; reflexivity|discriminate]|vm_compute; reflexivity]. Qed.
Lemma ex_here : heap_numbered fresh /\ exists sc, scope_at fresh main_sid = Some sc /\ s_needlv sc = false.
Proof. split; [split; intros l x E; unfold vec_at, dict_at in E; vm_compute in E; destruct l; discriminate|eexists; split; [vm_compute; reflexivity|reflexivity]]. Qed.
