(** Property C83: the lines typed at the debugger's prompt. *)
Require Import String Ascii List ZArith Bool Lia.
Require Import PArith FMapPositive.
From Verif Require Import Base CppString Num Token Value State Show Builtins Eval LispTop Debugger Cli SpecRun SpecVal SpecList SpecText SpecForm SpecDebug SpecCli SpecShow SpecCmd
  RunProofs ErrProofs FormProofs DebugProofs PromptProofs ShowProofs CmdProofs.
Import ListNotations.

Ltac type_it := eexists; split; [reflexivity|]; split; [exists [], []; repeat split; constructor|reflexivity].
Ltac fine_it := split; [cbn; intuition discriminate|discriminate].
Ltac no_mark := intros r E; discriminate.

(** ** C83: what a line means *)
Theorem C83_short : forall main g top cur script st w c rest, typed st w rest -> short_for w c ->
  forall o st', at_prompt main g top cur script st o st' <-> at_prompt main g top cur script (with_in (c :: rest) st) o st'.
Proof. exact short_same. Qed.
Print Assumptions C83_short.
Theorem C83_code : forall main g top cur script st w rest sc, typed st w rest -> ~ a_command w -> scope_at st cur = Some sc ->
  (forall v st1 t, debug_scripts w cur (s_module sc) (answered st rest) (Val (Some v)) st1 -> var_str v st1 = Val t -> fine_text t ->
     forall o st', at_prompt main g top cur script st o st' <-> at_prompt main g top cur (script ++ w ++ [c_nl]) (wrote ($"result=" ++ t ++ [c_nl]) st1) o st') /\
  (forall e st1, debug_scripts w cur (s_module sc) (answered st rest) (Throw e) st1 ->
     forall o st', at_prompt main g top cur script st o st' <->
       at_prompt main g top cur script (wrote (match e with ELisp m _ | ELispBase m => $"Exception: " ++ m | _ => $"Native Exception" end ++ [c_nl]) st1) o st').
Proof. exact typed_code. Qed.
Print Assumptions C83_code.
Theorem C83_variable_refuted : exists st x sc i v st', st = resting [$"x"; $"exit"] /\ x = $"x" /\ typed st x [$"exit"] /\ ~ a_command x /\ scope_at st 2%positive = Some sc /\
  first_var (s_vars sc) x (P i (OVar v)) /\ is_int v 5 /\
  at_prompt false main_sid 2%positive 2%positive [] st (Throw EStopDebugger) st' /\ st_out st' = prompt ++ $"Exception: List expected in do" ++ [c_nl] ++ prompt.
Proof. exact variable_not_shown. Qed.
Print Assumptions C83_variable_refuted.
Example C83_short_ex : short_for $"total" $"list" /\ short_for $"counter" $"code" /\ short_for $"lst" $"locals" /\ short_for $"key" $"stack" /\ typed (resting [$" total"; $"run"]) $"total" [$"run"].
Proof.
  split; [apply sf_list; right; exists $"otal"; reflexivity|]. split; [apply sf_code; [exists $"ounter"; reflexivity|intros (r & E); discriminate]|].
  split; [apply sf_locals; [exists $"st"; reflexivity|intros (r & E); discriminate]|]. split; [apply sf_stack; exists $"ey"; reflexivity|].
  eexists. split; [reflexivity|]. split; [exists $" ", []; repeat split; constructor|reflexivity].
Qed.
Example C83_code_ex : let st := resting [$"'x"; $"exit"] in typed st $"'x" [$"exit"] /\ ~ a_command $"'x" /\ scope_at st 2%positive = Some (frame_f $"m") /\
  exists e st1, debug_scripts $"'x" 2%positive $"m" (answered st [$"exit"]) (Val (Some e)) st1 /\ var_str e st1 = Val $"x".
Proof.
  cbv zeta. split; [type_it|]. split. { intros [I|(p & I & (r & E))]; [cbv in I; intuition discriminate|]. repeat destruct I as [<-|I]; try contradiction; discriminate. }
  split; [reflexivity|]. eexists. eexists. split; [apply (debug_scripts_by 30); [vm_compute; reflexivity|discriminate]|vm_compute; reflexivity].
Qed.

(** ** Fixed texts *)
Theorem C83_version : forall main g top cur script st w rest, typed st w rest -> In w [$"version"; $"ver"] ->
  forall o st', at_prompt main g top cur script st o st' <-> at_prompt main g top cur script (wrote version_text (answered st rest)) o st'.
Proof. exact version_command. Qed.
Print Assumptions C83_version.
Theorem C83_about : forall main g top cur script st rest, typed st $"about" rest ->
  forall o st', at_prompt main g top cur script st o st' <-> at_prompt main g top cur script (wrote about_text (answered st rest)) o st'.
Proof. exact about_command. Qed.
Print Assumptions C83_about.
Theorem C83_help : forall main g top cur script st w rest, typed st w rest -> In w [$"help"; $"h"] ->
  exists t, help_text t /\ forall o st', at_prompt main g top cur script st o st' <-> at_prompt main g top cur script (wrote t (answered st rest)) o st'.
Proof. exact help_command. Qed.
Print Assumptions C83_help.

(** ** Functions, macros and modules *)
Theorem C83_builtins : forall main g top cur script st rest sc t, typed st $"builtins" rest -> scope_at st g = Some sc -> functions_text built_in builtin_line (s_vars sc) t ->
  forall o st', at_prompt main g top cur script st o st' <-> at_prompt main g top cur script (wrote t (answered st rest)) o st'.
Proof. exact builtins_command. Qed.
Print Assumptions C83_builtins.
Theorem C83_funcs : forall main g top cur script st rest t, typed st $"funcs" rest -> all_functions st g t ->
  forall o st', at_prompt main g top cur script st o st' <-> at_prompt main g top cur script (wrote t (answered st rest)) o st'.
Proof. exact funcs_command. Qed.
Print Assumptions C83_funcs.
Theorem C83_manual : forall main g top cur script st w rest sc t, typed st w rest -> starts $"doc" w \/ starts $"searchdoc" w -> ~ In " "%char w ->
  scope_at st g = Some sc -> functions_text built_in manual_line (s_vars sc) t ->
  forall o st', at_prompt main g top cur script st o st' <-> at_prompt main g top cur script (wrote t (answered st rest)) o st'.
Proof. exact manual_command. Qed.
Print Assumptions C83_manual.
Theorem C83_doc : forall main g top cur script st what i rest sc, In what [$"doc"; $"searchdoc"] -> typed st (what ++ $" " ++ i) rest -> ~ In " "%char i -> scope_at st cur = Some sc ->
  (forall v st1 t, debug_scripts ($"(" ++ what ++ $" '" ++ i ++ $")") cur (s_module sc) (answered st rest) (Val (Some v)) st1 -> var_str v st1 = Val t -> fine_text t ->
     forall o st', at_prompt main g top cur script st o st' <-> at_prompt main g top cur script (wrote (t ++ [c_nl]) st1) o st') /\
  (forall e st1, debug_scripts ($"(" ++ what ++ $" '" ++ i ++ $")") cur (s_module sc) (answered st rest) (Throw e) st1 ->
     forall o st', at_prompt main g top cur script st o st' <-> o = Throw e /\ st' = st1).
Proof. exact doc_command. Qed.
Print Assumptions C83_doc.
Theorem C83_names : forall main g top cur script st w key rest sc, typed st w rest -> (w = $"macros" /\ key = $"###macros###") \/ (w = $"modules" /\ key = $"###modules###") ->
  scope_at st g = Some sc ->
  (forall i m ms, first_var (s_vars sc) key (P i (OScope m)) -> scope_at st m = Some ms ->
     forall o st', at_prompt main g top cur script st o st' <-> at_prompt main g top cur script (wrote (flat_map (fun kv => fst kv ++ [c_nl]) (s_vars ms)) (answered st rest)) o st') /\
  (~ In key (map fst (s_vars sc)) -> forall o st', at_prompt main g top cur script st o st' <-> at_prompt main g top cur script (answered st rest) o st').
Proof. exact names_command. Qed.
Print Assumptions C83_names.
Example C83_functions_ex : functions_text built_in builtin_line (s_vars (frame_f $"m")) ($"                plus --> function                                 : Function " ++ [c_nl]) /\
  functions_text built_in manual_line (s_vars (frame_f $"m")) ($"                plus --> " ++ [c_nl]) /\
  all_functions some_state 3%positive ($"                plus --> function                                 : Function  : module=" ++ [c_nl]).
Proof.
  assert (NI : forall c t r, c <> "#"%char -> c :: t <> $"###" ++ r) by (intros c t r N E; injection E as E _; contradiction).
  split; [|split].
  - apply (fx_internal _ _ $"x"). apply (fx_shown built_in builtin_line $"plus" 82%positive _ (MkFn (CBuiltin BAdd) [] [] true false false []) (head_line $"plus" (MkFn (CBuiltin BAdd) [] [] true false false []) ++ [c_nl]) _ []); [no_mark|reflexivity|reflexivity|reflexivity|constructor; fine_it|].
    apply fx_other; [no_mark|discriminate|]. apply fx_other; [no_mark|discriminate|apply fx_end].
  - apply (fx_internal _ _ $"x"). apply (fx_shown built_in manual_line $"plus" 82%positive _ (MkFn (CBuiltin BAdd) [] [] true false false []) ($"                plus --> " ++ [c_nl]) _ []); [no_mark|reflexivity|reflexivity|reflexivity|apply ml_plain; [fine_it|fine_it|reflexivity]|].
    apply fx_other; [no_mark|discriminate|]. apply fx_other; [no_mark|discriminate|apply fx_end].
  - eapply (af_modules some_state 3%positive _ [] 3%positive 5%positive); [reflexivity| |exists [($"###macros###", P 2%positive (OScope 4%positive))], [($"x", P 84%positive (OVar (vint 5)))]; split; [reflexivity|cbv; intuition discriminate]|reflexivity|].
    + apply (fx_internal _ _ $"macros###"), (fx_internal _ _ $"modules###"). apply fx_other; [no_mark|discriminate|apply fx_end].
    + apply (om_more some_state $"m.fuel" 4%positive 2%positive [] ($"                plus --> function                                 : Function  : module=" ++ [c_nl]) []); [|apply om_end].
      eapply af_alone; [reflexivity| |cbv; intuition discriminate].
      apply (fx_internal _ _ $"x"). apply (fx_shown (fun _ => True) function_line $"plus" 82%positive _ (MkFn (CBuiltin BAdd) [] [] true false false [])
        (head_line $"plus" (MkFn (CBuiltin BAdd) [] [] true false false []) ++ $" : module=" ++ [] ++ [c_nl]) _ []); [no_mark|reflexivity|reflexivity|exact I| |].
      * apply (fl_line _ _ []); [fine_it|fine_it|fine_it|left; split; [intros (r & E); discriminate|reflexivity]].
      * apply fx_other; [no_mark|discriminate|]. apply fx_other; [no_mark|discriminate|apply fx_end].
Qed.
Example C83_names_ex : exists sc ms, typed some_state $"macros" [$"run"] /\ scope_at some_state 3%positive = Some sc /\ first_var (s_vars sc) $"###macros###" (P 2%positive (OScope 4%positive)) /\
  scope_at some_state 4%positive = Some ms /\ flat_map (fun kv : str * ptr => fst kv ++ [c_nl]) (s_vars ms) = $"inc" ++ [c_nl] ++ $"twice" ++ [c_nl].
Proof. eexists. eexists. split; [type_it|]. split; [reflexivity|]. split; [eexists []; eexists; split; [reflexivity|intros []]|]. split; reflexivity. Qed.
Example C83_doc_ex : let st := resting [$"doc nop"; $"exit"] in typed st ($"doc" ++ $" " ++ $"nop") [$"exit"] /\ ~ In " "%char $"nop" /\ scope_at st 2%positive = Some (frame_f $"m") /\
  exists v st1, debug_scripts $"(doc 'nop)" main_sid $"m" (answered st [$"exit"]) (Val (Some v)) st1.
Proof.
  cbv zeta. split; [type_it|]. split; [cbv; intuition discriminate|]. split; [reflexivity|]. eexists. eexists. apply (debug_scripts_by 30); [vm_compute; reflexivity|discriminate].
Qed.

(** ** Lines that do not come back *)
Theorem C83_clear_never : forall main g top cur script st rest, typed st $"clear" rest -> Forall (fun x => ~ says_yes x /\ ~ says_no x /\ forallb is_7bit x = true) rest ->
  forall o st', ~ at_prompt main g top cur script st o st'.
Proof. exact clear_never. Qed.
Print Assumptions C83_clear_never.
Theorem C83_quote_ends : forall main g top cur script st w name rest sc, In w [$"b "; $"break "] -> typed st (w ++ [c_dquote] ++ name) rest -> ~ In c_dquote name -> scope_at st cur = Some sc ->
  forall o st', at_prompt main g top cur script st o st' <-> o = Throw EOutOfRange /\ st' = answered st rest.
Proof. exact quote_ends. Qed.
Print Assumptions C83_quote_ends.
Example C83_never_ex : typed (resting [$"clear"; $"maybe"]) $"clear" [$"maybe"] /\ ~ says_yes $"maybe" /\ ~ says_no $"maybe" /\
  typed (resting [$"break " ++ [c_dquote] ++ $"m:3"]) ($"break " ++ [c_dquote] ++ $"m:3") [].
Proof. split; [type_it|]. split; [cbv; intuition discriminate|]. split; [cbv; intuition discriminate|type_it]. Qed.
