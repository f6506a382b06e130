(** Property C45: the command line program. *)
Require Import String Ascii List ZArith Bool Lia Permutation.
Require Import PArith FMapPositive.
From Verif Require Import Base CppString Num Token Value State Show Builtins Eval LispTop Debugger Cli SpecRun SpecText SpecDebug SpecCli
  RunProofs PromptProofs CliProofs.
Import ListNotations.

(** ** The words *)
Theorem C45_help : forall h args st, args = [] \/ In $"-h" args -> ~ In $"-v" args ->
  exists text, (forall o st', mains h args st o st' <-> o = Val tt /\ st' = wrote text st) /\
    forall w, In w ([$"-v"; $"-h"; $"-l="] ++ meant true) -> (listed w text <-> (In w [$"-i"; $"-d"] -> h_debugger h = true)).
Proof. exact help_shown. Qed.
Print Assumptions C45_help.
Theorem C45_version : forall h args st, In $"-v" args -> forall o st', mains h args st o st' <->
  o = Val tt /\ st' = wrote (line ($"fuel v0.99.6 from 16.12.2023 compiled with " ++ h_compiler h)) st.
Proof. exact version_shown. Qed.
Print Assumptions C45_version.
Theorem C45_unknown : forall h a lib os fs xs st, parted a os fs -> Forall (fun w => ~ path_word w) a -> ~ In $"-v" a -> ~ In $"-h" a -> (In $"-e" os -> fs <> []) ->
  extra (meant (h_debugger h)) [] os xs -> xs <> [] ->
  forall o st', mains h (with_path lib a) st o st' <-> o = Val tt /\ st' = wrote (line ($"Error: unknown option(s) " ++ flat_map (fun w => w ++ $" ") xs)) (lib_set lib st).
Proof. exact unknown_words. Qed.
Print Assumptions C45_unknown.
Theorem C45_paths : forall h a p b st, b <> [] -> let args := a ++ ($"-l=" ++ p) :: b in ~ In $"-v" args -> ~ In $"-h" args ->
  (In $"-e" args -> exists f, In f args /\ ~ dashed f) ->
  forall o st', mains h args st o st' <-> o = Val tt /\ st' = wrote (line $"Error: only one library path is supported") st.
Proof. exact many_paths. Qed.
Print Assumptions C45_paths.
Theorem C45_order : forall h args args' os os' fs lib st, understood (h_debugger h) args os fs lib -> understood (h_debugger h) args' os' fs lib ->
  (forall w, In w os <-> In w os') -> forall o st', mains h args st o st' <-> mains h args' st o st'.
Proof. exact order_free. Qed.
Print Assumptions C45_order.
Theorem C45_path_order_refuted : exists h args args' st o1 st1 o2 st2, Permutation args args' /\ mains h args st o1 st1 /\ mains h args' st o2 st2 /\
  st_out st1 = line $"1" /\ st_out st2 = line $"Error: only one library path is supported".
Proof. exact path_first. Qed.
Print Assumptions C45_path_order_refuted.
Theorem C45_twice_refuted : exists h args st st', args = [$"-x"; $"a.fuel"; $"-x"] /\ mains h args st (Val tt) st' /\ st_out st' = line $"Error: unknown option(s) -x ".
Proof. exact twice. Qed.
Print Assumptions C45_twice_refuted.
Example C45_words_ex :
  parted [$"-q"; $"a.fuel"; $"-x"; $"-x"] [$"-q"; $"-x"; $"-x"] [$"a.fuel"] /\ extra (meant true) [] [$"-q"; $"-x"; $"-x"] [$"-q"; $"-x"] /\
  Forall (fun w => ~ path_word w) [$"-q"; $"a.fuel"; $"-x"; $"-x"] /\
  understood true [$"-x"; $"a.fuel"; $"-t"; $"b.fuel"; $"-l=lib"] [$"-x"; $"-t"] [$"a.fuel"; $"b.fuel"] (Some $"lib") /\
  understood true [$"a.fuel"; $"b.fuel"; $"-t"; $"-x"; $"-l=lib"] [$"-t"; $"-x"] [$"a.fuel"; $"b.fuel"] (Some $"lib") /\
  listed $"-i" (st_out (snd (fuel_main (linux true) 5 [$"-h"] (with_files [])))) /\ ~ listed $"-i" (st_out (snd (fuel_main (linux false) 5 [$"-h"] (with_files [])))).
Proof.
  assert (ND : forall w, match w with a :: _ => Ascii.eqb a "-"%char = false | [] => True end -> ~ dashed w) by (intros [|a w] H (r & E); [discriminate|injection E as -> _; discriminate]).
  assert (NP : forall w, match w with _ :: a :: _ => Ascii.eqb a "l"%char = false | _ => True end -> ~ path_word w) by (intros [|b [|a w]] H (r & E); try discriminate; injection E as _ -> _; discriminate).
  assert (D : forall r, dashed ("-"%char :: r)) by (intros r; exists r; reflexivity).
  split; [repeat first [apply pa_nil|apply pa_option; [apply D|]|apply pa_file; [apply ND; reflexivity|]]|].
  split. { apply ex_extra; [left; cbn; intuition discriminate|]. apply ex_used; [cbn; tauto|cbn; intuition discriminate|]. apply ex_extra; [right; left; reflexivity|constructor]. }
  split; [repeat constructor; apply NP; exact Logic.I || reflexivity|].
  split. { apply (understand true [$"-x"; $"a.fuel"; $"-t"; $"b.fuel"] _ _ (Some $"lib")); [repeat first [apply pa_nil|apply pa_option; [apply D|]|apply pa_file; [apply ND; reflexivity|]]|repeat constructor; cbn; intuition discriminate|intros w I; cbn in I |- *; tauto|discriminate]. }
  split. { apply (understand true [$"a.fuel"; $"b.fuel"; $"-t"; $"-x"] _ _ (Some $"lib")); [repeat first [apply pa_nil|apply pa_option; [apply D|]|apply pa_file; [apply ND; reflexivity|]]|repeat constructor; cbn; intuition discriminate|intros w I; cbn in I |- *; tauto|discriminate]. }
  split; rewrite <- listb_listed; vm_compute; [reflexivity|discriminate].
Qed.

(** ** What is run *)
Theorem C45_files : forall h args os fs lib st r st1, understood (h_debugger h) args os fs lib -> none_of [$"-e"; $"--doc"; $"--html"; $"-i"; $"-d"] os -> Forall c_string fs -> fine_text (h_seconds h) ->
  loaded (has os $"-x") (has os $"-t") (has os $"--macro-expand") fs (Some vundef) (prepared h lib st) r st1 ->
  (forall v t, r = Val (Some v) -> (text_wanted os = true -> var_str v st1 = Val t) -> forall o st', mains h args st o st' <-> o = Val tt /\ st' = wrote (last_lines h os t) st1) /\
  (forall o1, same_failure r o1 -> forall o st', mains h args st o st' <-> o = o1 /\ st' = st1).
Proof. exact files_run. Qed.
Print Assumptions C45_files.
Theorem C45_script : forall h args os fs lib c st r st1, understood (h_debugger h) args os fs lib -> none_of [$"-i"; $"-d"] os -> command_text os fs c -> c <> [] -> fine_text (h_seconds h) ->
  saves false false (has os $"--macro-expand") c $"cmdline" (renewed (prepared h lib st)) r st1 ->
  (forall v t, r = Val (Some v) -> (text_wanted os = true -> var_str v st1 = Val t) -> forall o st', mains h args st o st' <-> o = Val tt /\ st' = wrote (last_lines h os t) st1) /\
  (forall o1, same_failure r o1 -> forall o st', mains h args st o st' <-> o = o1 /\ st' = st1).
Proof. exact command_run. Qed.
Print Assumptions C45_script.
Theorem C45_no_script_refuted : forall h args os lib st, understood (h_debugger h) args os [] lib -> In $"-e" os -> mains h args st (Undef UBIndex) st.
Proof. exact command_missing. Qed.
Print Assumptions C45_no_script_refuted.
Example C45_files_ex : let st0 := prepared (linux true) None (with_files []) in
  let r1 := save_eval 40 true false false $"(do (println 1) (def x 5))" $"a.fuel" (renewed st0) in
  let r2 := save_eval 40 true false false $"(do (println x) (println 2))" $"b.fuel" (renewed (snd r1)) in
  understood true [$"a.fuel"; $"-x"; $"b.fuel"; $"-m"] [$"-x"; $"-m"] [$"a.fuel"; $"b.fuel"] None /\
  none_of [$"-e"; $"--doc"; $"--html"; $"-i"; $"-d"] [$"-x"; $"-m"] /\ Forall c_string [$"a.fuel"; $"b.fuel"] /\ fine_text (h_seconds (linux true)) /\
  (exists r st', loaded true false false [$"a.fuel"; $"b.fuel"] (Some vundef) st0 (Val r) st') /\
  st_out (snd (fuel_main (linux true) 40 [$"a.fuel"; $"-t"; $"b.fuel"; $"-m"] (with_files []))) <> [] /\
  command_text [$"-e"] [$"(println 7)"] $"(println 7)" /\
  st_out (snd (fuel_main (linux true) 40 [$"-e"; $"(println 7)"; $"-m"] (with_files []))) = line $"7" ++ line $"Execution time = 0.001000 s".
Proof.
  cbv zeta.
  assert (ND : forall w, match w with a :: _ => Ascii.eqb a "-"%char = false | [] => True end -> ~ dashed w) by (intros [|a w] H (r & E); [discriminate|injection E as -> _; discriminate]).
  assert (D : forall r, dashed ("-"%char :: r)) by (intros r; exists r; reflexivity).
  split. { apply (understand true [$"a.fuel"; $"-x"; $"b.fuel"; $"-m"] _ _ None); [repeat first [apply pa_nil|apply pa_option; [apply D|]|apply pa_file; [apply ND; reflexivity|]]|repeat constructor; cbn; intuition discriminate|intros w I; cbn in I |- *; tauto|discriminate]. }
  split; [intros w I J; cbn in I, J; intuition (subst; discriminate)|].
  split; [repeat constructor; intro I; cbn in I; intuition discriminate|].
  split; [split; intro I; cbn in I; intuition discriminate|].
  split. { eexists. eexists. eapply ld_file; [eapply (ft_there _ _ []); [reflexivity|intros []]|apply (saves_by 40); [vm_compute; reflexivity|discriminate]|].
    eapply ld_file; [eapply (ft_there _ _ [_]); [vm_compute; reflexivity|cbn; intuition discriminate]|apply (saves_by 40); [vm_compute; reflexivity|discriminate]|]. constructor. }
  split; [vm_compute; discriminate|]. split; [constructor; left; reflexivity|]. vm_compute. reflexivity.
Qed.
Example C45_files_output_ex : st_out (snd (fuel_main (linux true) 40 [$"a.fuel"; $"-m"; $"b.fuel"; $"a.fuel"] (with_files []))) =
  line $"1" ++ line $"x" ++ line $"2" ++ line $"1" ++ line $"Execution time = 0.001000 s".
Proof. vm_compute. reflexivity. Qed.

(** ** The shell and the debugger *)
Theorem C45_shell : forall h args os fs lib st r st1, understood (h_debugger h) args os fs lib -> h_debugger h = true -> In $"-i" os -> ~ In $"-d" os -> (In $"-e" os -> fs <> []) -> fine_text (h_seconds h) ->
  in_shell main_sid [] (shell_start (has os $"-t" || has os $"--doc" || has os $"--html") (wrote greeting (prepared h lib st))) r st1 ->
  (forall b, r = Val b -> forall o st', mains h args st o st' <-> o = Val tt /\ st' = wrote (last_lines h os $"<undefined>") st1) /\
  (forall o1, same_failure r o1 -> forall o st', mains h args st o st' <-> o = o1 /\ st' = st1).
Proof. exact shell_run. Qed.
Print Assumptions C45_shell.
Theorem C45_shell_exit : forall cur script st w rest, typed st w rest -> In w [$"exit"; $"quit"; $"q"; []] ->
  forall o st', in_shell cur script st o st' <-> o = Val false /\ st' = answered st rest.
Proof. exact shell_exit. Qed.
Print Assumptions C45_shell_exit.
Theorem C45_shell_end_of_input : forall cur script st, st_in st = [] -> forall o st', in_shell cur script st o st' <-> o = Val false /\ st' = wrote prompt st.
Proof. exact shell_end_of_input. Qed.
Print Assumptions C45_shell_end_of_input.
Theorem C45_shell_expression : forall cur script st w rest sc, typed st ("("%char :: w) rest -> scope_at st cur = Some sc ->
  (forall v st1 t, plain_scripts ("("%char :: w) cur (s_module sc) (answered st rest) (Val (Some v)) st1 -> var_str v st1 = Val t -> fine_text t ->
     forall o st', in_shell cur script st o st' <-> in_shell cur (script ++ ("("%char :: w) ++ [c_nl]) (wrote ($"result=" ++ t ++ [c_nl]) st1) o st') /\
  (forall e st1, plain_scripts ("("%char :: w) cur (s_module sc) (answered st rest) (Throw e) st1 ->
     forall o st', in_shell cur script st o st' <->
       in_shell cur script (wrote (match e with ELisp m _ | ELispBase m => $"Exception: " ++ m | _ => $"Native Exception" end ++ [c_nl]) st1) o st').
Proof. exact shell_expression. Qed.
Print Assumptions C45_shell_expression.
Theorem C45_debug : forall h args os fs lib c name st r st1, understood (h_debugger h) args os fs lib -> h_debugger h = true -> In $"-d" os -> ~ In $"-i" os -> debugged st os fs c name -> fine_text (h_seconds h) ->
  session_after false (has os $"-t" || has os $"--doc" || has os $"--html") c name (wrote greeting (prepared h lib st)) r st1 ->
  (forall b, r = Val b -> text_wanted os = false -> forall o st', mains h args st o st' <-> o = Val tt /\ st' = wrote (last_lines h os []) st1) /\
  (r = Val false -> text_wanted os = true -> forall o st', mains h args st o st' <-> o = Undef UBNullDeref /\ st' = st1) /\
  (forall o1, same_failure r o1 -> forall o st', mains h args st o st' <-> o = o1 /\ st' = st1).
Proof. exact debug_run. Qed.
Print Assumptions C45_debug.
Example C45_shell_ex : let st := with_files [$"(+ 3 4)"; $"exit"] in let st0 := shell_start false (wrote greeting (prepared (linux true) None st)) in
  understood true [$"-i"] [$"-i"] [] None /\ typed st0 $"(+ 3 4)" [$"exit"] /\ (exists sc, scope_at st0 main_sid = Some sc) /\
  (exists v st1, plain_scripts $"(+ 3 4)" main_sid $"command-line" (answered st0 [$"exit"]) (Val (Some v)) st1 /\ var_str v st1 = Val $"7") /\ fine_text $"7" /\
  (exists st1, in_shell main_sid [] st0 (Val false) st1 /\ st_out st1 = greeting ++ prompt ++ line $"result=7" ++ prompt) /\
  mains (linux true) [$"-i"] st (Val tt) (snd (fuel_main (linux true) 40 [$"-i"] st)).
Proof.
  cbv zeta. split. { apply (understand true [$"-i"] _ _ None); [apply pa_option; [exists $"i"; reflexivity|constructor]|repeat constructor; intros []|intros w I; cbn in I |- *; tauto|discriminate]. }
  split; [eexists; split; [reflexivity|]; split; [exists [], []; repeat split; constructor|reflexivity]|].
  split; [eexists; vm_compute; reflexivity|].
  split. { eexists. eexists. split; [apply (plain_by 40); [vm_compute; reflexivity|discriminate]|]. vm_compute. reflexivity. }
  split; [split; intro I; cbn in I; intuition discriminate|].
  split. { eexists. split; [apply (shells_by 40); [vm_compute; reflexivity|discriminate]|]. vm_compute. reflexivity. }
  apply mains_by; [vm_compute; reflexivity|discriminate].
Qed.
Example C45_debug_ex : let st := with_files [$"run"; $"exit"] in
  understood true [$"a.fuel"; $"-d"] [$"-d"] [$"a.fuel"] None /\ (exists t, debugged st [$"-d"] [$"a.fuel"] t $"a.fuel" /\
    exists st1, session_after false false t $"a.fuel" (wrote greeting (prepared (linux true) None st)) (Val true) st1) /\
  mains (linux true) [$"a.fuel"; $"-d"] st (Val tt) (snd (fuel_main (linux true) 40 [$"a.fuel"; $"-d"] st)) /\
  mains (linux true) [$"a.fuel"; $"-d"; $"-t"] (with_files [$"exit"]) (Undef UBNullDeref) (snd (fuel_main (linux true) 40 [$"a.fuel"; $"-d"; $"-t"] (with_files [$"exit"]))).
Proof.
  cbv zeta.
  split. { apply (understand true [$"a.fuel"; $"-d"] _ _ None); [apply pa_file; [intros (r & E); discriminate|]; apply pa_option; [exists $"d"; reflexivity|constructor]|repeat constructor; intros []|intros w I; cbn in I |- *; tauto|discriminate]. }
  split. { eexists. split.
    - eapply dg_file; [intros w I J; cbn in I, J; intuition (subst; discriminate)|reflexivity|intro I; cbn in I; intuition discriminate|].
      eapply (ft_there _ _ []); [reflexivity|intros []].
    - eexists. apply (sessions_by 40); [vm_compute; reflexivity|discriminate]. }
  split; apply mains_by; try discriminate; vm_compute; reflexivity.
Qed.
