(** Properties C74 and C75: what the debugger shows. *)
Require Import String Ascii List ZArith Bool Lia.
Require Import PArith FMapPositive.
From Verif Require Import Base CppString Num Token Value State Show Builtins Eval LispTop Debugger Cli SpecRun SpecVal SpecList SpecText SpecForm SpecDebug SpecCli SpecShow
  RunProofs ErrProofs FormProofs DebugProofs PromptProofs ShowProofs.
Import ListNotations.

Ltac type_it := eexists; split; [reflexivity|]; split; [exists [], []; repeat split; constructor|reflexivity].
Ltac fine_it := split; [cbn; intuition discriminate|discriminate].

(** ** C74: the listing of the program *)
Theorem C74_code : forall main g top cur script st w rest sc now text ls shown, typed st w rest -> In w [$"code"; $"c"] -> scope_at st cur = Some sc ->
  now_at sc now -> ~ from_text (s_module sc) -> program_text st (s_module sc) script text ->
  ls <> [] -> Forall is_line ls -> join_lines ls = text -> Forall fine_text ls -> listed (d_bps (st_dbg st)) (s_module sc) now 1 ls shown ->
  forall o st', at_prompt main g top cur script st o st' <-> at_prompt main g top cur script (wrote shown (answered st rest)) o st'.
Proof. exact code_command. Qed.
Print Assumptions C74_code.
Theorem C74_code_of_text : forall main g top cur script st w rest sc now a text ls shown, typed st w rest -> In w [$"code"; $"c"] -> scope_at st cur = Some sc ->
  now_at sc now -> s_module sc = $"<evalstr>:" ++ a ++ $":" ++ text -> ~ In ":"%char a ->
  (forall cut r, text = cut ++ r -> length cut = 9%nat -> r <> [] -> ls <> [] -> Forall is_line ls -> join_lines ls = r -> Forall fine_text ls ->
     listed (d_bps (st_dbg st)) (s_module sc) now 1 ls shown ->
     forall o st', at_prompt main g top cur script st o st' <-> at_prompt main g top cur script (wrote shown (answered st rest)) o st') /\
  ((length text < 9)%nat -> forall o st', at_prompt main g top cur script st o st' <-> o = Throw EOutOfRange /\ st' = answered st rest).
Proof. exact code_of_text. Qed.
Print Assumptions C74_code_of_text.
Theorem C74_braces_refuted : exists st', at_prompt false main_sid 2%positive 2%positive [] (looking_in $"n" [$"code"; $"run"]) (Throw (ELispBase $"Not enough items for format string: {0,3} {1,2} {2,3} {3}")) st' /\ st_in st' = [$"run"].
Proof. exact code_braces. Qed.
Print Assumptions C74_braces_refuted.
Example C74_ex : let st := looking [$"code"; $"run"] in
  typed st $"code" [$"run"] /\ scope_at st 2%positive = Some (frame_f $"m") /\ now_at (frame_f $"m") 2 /\ ~ from_text $"m" /\ program_text st $"m" [] file_m /\
  join_lines [$"(defn f (x)"; $"  (print x))"; $"(f 5)"] = file_m /\ Forall is_line [$"(defn f (x)"; $"  (print x))"; $"(f 5)"] /\ Forall fine_text [$"(defn f (x)"; $"  (print x))"; $"(f 5)"] /\
  listed (d_bps (st_dbg st)) $"m" 2 1 [$"(defn f (x)"; $"  (print x))"; $"(f 5)"]
    ($"  1 B      (defn f (x)" ++ [c_nl] ++ $"  2    -->   (print x))" ++ [c_nl] ++ $"  3        (f 5)" ++ [c_nl]).
Proof.
  cbv zeta. split; [type_it|]. split; [reflexivity|]. split; [eexists; split; [reflexivity|split; [reflexivity|split; [discriminate|reflexivity]]]|].
  split; [intros (r & E); discriminate|]. split; [apply pt_file; [discriminate|cbv; intuition discriminate|apply (ft_there _ _ [] file_m [($"n", $"{4}")]); [reflexivity|intros []]|discriminate]|].
  split; [reflexivity|]. split; [repeat constructor; cbv; intuition discriminate|]. split; [repeat constructor; try (cbv; intuition discriminate); discriminate|].
  apply (li_line _ _ _ 1 _ _ $"B " $"   "); [left; split; [reflexivity|exists (Bp 1 $"m" []); split; [left; reflexivity|split; [reflexivity|right; right; reflexivity]]]|right; split; [reflexivity|discriminate]|].
  apply (li_line _ _ _ 2 _ _ $"  " $"-->"); [right; split; [reflexivity|repeat constructor; intros (X & _); discriminate]|left; split; reflexivity|].
  apply (li_line _ _ _ 3 _ _ $"  " $"   "); [right; split; [reflexivity|repeat constructor; intros (X & _); discriminate]|right; split; [reflexivity|discriminate]|apply li_end].
Qed.
Example C74_text_ex : let m := $"<evalstr>:m:(+ 1 (* 2 3))" in let st := looking_in m [$"c"] in
  typed st $"c" [] /\ scope_at st 2%positive = Some (frame_f m) /\ m = $"<evalstr>:" ++ $"m" ++ $":" ++ $"(+ 1 (* 2 3))" /\ ~ In ":"%char $"m" /\
  $"(+ 1 (* 2 3))" = $"(+ 1 (* 2" ++ $" 3))" /\ length ($"(+ 1 (* 2") = 9%nat /\
  exists st', at_prompt false main_sid 2%positive 2%positive [] st (Throw EStopDebugger) st' /\ st_out st' = prompt ++ $"  1         3))" ++ [c_nl] ++ prompt.
Proof.
  cbv zeta. split; [type_it|]. split; [reflexivity|]. split; [reflexivity|]. split; [cbv; intuition discriminate|]. split; [reflexivity|]. split; [reflexivity|].
  eexists. split; [apply (at_prompt_by 10); [vm_compute; reflexivity|discriminate]|vm_compute; reflexivity].
Qed.

(** ** C75: breakpoints, call stack and variables *)
Theorem C75_breakpoints : forall main g top cur script st w rest t, typed st w rest -> In w [$"list"; $"t"] -> Forall fine_break (d_bps (st_dbg st)) -> numbered 1 (d_bps (st_dbg st)) t ->
  forall o st', at_prompt main g top cur script st o st' <-> at_prompt main g top cur script (wrote ($"Breakpoints:" ++ [c_nl] ++ t) (answered st rest)) o st'.
Proof. exact list_command. Qed.
Print Assumptions C75_breakpoints.
Theorem C75_stack : forall main g top cur script st w rest n d t, typed st w rest -> In w [$"stack"; $"k"] -> depth_at st cur n -> fine_frames st top -> stack_text st n top d t ->
  forall o st', at_prompt main g top cur script st o st' <-> at_prompt main g top cur script (wrote (t ++ [c_nl]) (answered st rest)) o st'.
Proof. exact stack_command. Qed.
Print Assumptions C75_stack.
Theorem C75_variables : forall main g top cur script st w rest s sc t, typed st w rest ->
  (In w [$"locals"; $"l"] /\ s = cur) \/ (In w [$"globals"; $"g"] /\ s = g) -> scope_at st s = Some sc -> variables_text (s_vars sc) t ->
  forall o st', at_prompt main g top cur script st o st' <-> at_prompt main g top cur script (wrote t (answered st rest)) o st'.
Proof. exact variables_command. Qed.
Print Assumptions C75_variables.
Theorem C75_vars : forall args s st sc t, scope_at st s = Some sc -> variables_text (s_vars sc) t ->
  exists r, builtin_call $"vars" args s st (Val (Some r)) (wrote ($"variables:" ++ [c_nl] ++ t) st) /\ v_ty r = TUndef.
Proof. exact vars_shows. Qed.
Print Assumptions C75_vars.
Example C75_ex : let st w := looking [w; $"run"] in
  typed (st $"t") $"t" [$"run"] /\ Forall fine_break (d_bps (st_dbg (st $"t"))) /\
  numbered 1 (d_bps (st_dbg (st $"t"))) ($"#1   line=1     module=m                         condition=" ++ [c_nl] ++ $"#2   line=7     module=                          condition=(> x 1)" ++ [c_nl]) /\
  depth_at (st $"k") 2%positive 2 /\ fine_frames (st $"k") 2%positive /\
  stack_text (st $"k") 2 2%positive 2 ($"       1 name=<main>                              lineno=3    module=m" ++ [c_nl] ++
                                       $"-->    2 name=f                                   lineno=2    module=m" ++ [c_nl]) /\
  variables_text (s_vars (frame_f $"m")) ($"                   t --> " ++ [c_dquote] ++ $"abc" ++ [c_dquote] ++ $"                                    : String " ++ [c_nl] ++
                                          $"                   x --> 5                                        : Int " ++ [c_nl]).
Proof.
  cbv zeta. split; [type_it|]. split; [repeat constructor; try (cbv; intuition discriminate); discriminate|].
  split. { apply (nb_one 1 1 $"m" []), (nb_one 2 7 [] $"(> x 1)"), nb_end. }
  split. { apply (depth_more _ _ (frame_f $"m") main_sid 1); [reflexivity|reflexivity|reflexivity|]. eapply depth_one; vm_compute; reflexivity. }
  split. { apply (ff_more _ _ (frame_f $"m") main_sid); [reflexivity|reflexivity|fine_it|fine_it|]. eapply ff_one; [vm_compute; reflexivity|reflexivity|fine_it|fine_it]. }
  split. { change (stack_text (looking [$"k"; $"run"]) 2 2%positive (1 + 1) (frame_line 2 1 $"<main>" $"3" $"m" ++ frame_line 2 (1 + 1) (s_name (frame_f $"m")) $"2" (s_module (frame_f $"m")))).
    apply (sk_more _ _ _ _ main_sid); [reflexivity|reflexivity|reflexivity|left; eexists; split; reflexivity|].
    assert (E : exists sc, scope_at (looking [$"k"; $"run"]) main_sid = Some sc /\ s_prev sc = None /\ s_name sc = $"<main>" /\ s_module sc = $"m" /\ line_text sc $"3")
      by (eexists; split; [vm_compute; reflexivity|]; repeat split; left; eexists; split; reflexivity).
    destruct E as (sc & E & P & N & M & L). rewrite <- N, <- M. apply sk_one; assumption. }
  apply (vt_internal $"x"). eapply vt_builtin; [intros r E; discriminate|reflexivity|reflexivity|reflexivity|].
  apply (vt_shown $"t" _ _ ([c_dquote] ++ $"abc" ++ [c_dquote]) $"String"); [intros r E; discriminate|apply dp_text; split; reflexivity|fine_it|fine_it|].
  apply (vt_shown $"x" _ _ $"5" $"Int"); [intros r E; discriminate|apply (dp_int _ 5); split; reflexivity|fine_it|fine_it|apply vt_end].
Qed.
