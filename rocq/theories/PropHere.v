(** Property C87: break, platform, need-l-value and Math-Pi. *)
Require Import String Ascii List ZArith Bool Lia.
Require Import PArith FMapPositive.
From Verif Require Import Base CppString Num Token Value State Show Builtins Eval LispTop Debugger SpecRun SpecVal SpecNum SpecList SpecForm SpecText SpecIo SpecDebug SpecMix SpecShow SpecMath
  RunProofs FormProofs HereProofs.
Import ListNotations.

(** ** C87: what a program learns about its place *)
Theorem C87_break : forall args s st d t, fine_frames st s -> stack_text st d s d t ->
  exists r, builtin_call $"break" args s st (Val (Some r))
    (wrote ($"break -> call stack:" ++ [c_nl] ++ t ++ [c_nl] ++ $"Warning: can not break, because no debugger support availabe!" ++ [c_nl]) st) /\ v_ty r = TUndef.
Proof. exact break_shows. Qed.
Print Assumptions C87_break.
(** The global scope alone; a call of a function. *)
Example C87_break_ex : fine_frames fresh main_sid /\ exists t, stack_text fresh 1 main_sid 1 t.
Proof. exact ex_frames. Qed.
Example C87_break_text_ex : exists r st', runs false false ($"(defn f (x) (break))" ++ [c_nl] ++ $"(f 1)") $"main" fresh (Val r) st' /\
  st_out st' = $"break -> call stack:" ++ [c_nl] ++ $"       1 name=<main>                              lineno=2    module=main" ++ [c_nl] ++
    $"-->    2 name=f                                   lineno=1    module=main" ++ [c_nl; c_nl] ++ $"Warning: can not break, because no debugger support availabe!" ++ [c_nl].
Proof. exact ex_break. Qed.
Theorem C87_break_debugger : forall f args s sc st d t, builtin_fn $"break" = Some f -> scope_at st s = Some sc -> fine_frames st s -> stack_text st d s d t ->
  forall o st', debug_calls f args s st o st' <->
    exists o1, at_prompt false (s_global sc) s s [] (wrote ($"break -> call stack:" ++ [c_nl] ++ t ++ [c_nl]) st) o1 st' /\
      o = match o1 with Val _ => Val (Some vundef) | Throw e => Throw e | Undef u => Undef u | Unmod w => Unmod w | NoFuel => NoFuel end.
Proof. exact break_stops. Qed.
Print Assumptions C87_break_debugger.
Example C87_break_debugger_ex : (exists f, builtin_fn $"break" = Some f) /\ (exists sc, scope_at fresh main_sid = Some sc) /\ fine_frames fresh main_sid /\ exists t, stack_text fresh 1 main_sid 1 t.
Proof. split; [eexists; vm_compute; reflexivity|]. split; [eexists; vm_compute; reflexivity|exact ex_frames]. Qed.
Theorem C87_platform : forall args s st, heap_numbered st -> exists a b c, builtin_list $"platform" args s st [P a (OString $"UNIX"); P b (OString $"C++"); P c (OString $"64bit")].
Proof. exact platform_is. Qed.
Print Assumptions C87_platform.
Theorem C87_need : forall s st sc, scope_at st s = Some sc -> builtin_pure $"need-l-value" [] s st (fun r => is_bool r (s_needlv sc)).
Proof. exact need_is. Qed.
Print Assumptions C87_need.
Example C87_ex : heap_numbered fresh /\ exists sc, scope_at fresh main_sid = Some sc /\ s_needlv sc = false.
Proof. exact ex_here. Qed.
Theorem C87_pi : forall s st, builtin_pure $"Math-Pi" [] s st (fun r => exists d n q, is_dbl r d /\ proper d /\ fraction d n q /\
  (2 * Z.abs (n * 10 ^ 30 - 3141592653589793238462643383279 * q) <= 10 ^ 30)%Z /\ (2 ^ 52 <= n < 2 ^ 53)%Z).
Proof. exact pi_is. Qed.
Print Assumptions C87_pi.
