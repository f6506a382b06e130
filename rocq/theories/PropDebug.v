(** Properties C43, C44, C53 to C55: the debugger. *)
Require Import String Ascii List ZArith Bool Lia.
Require Import PArith FMapPositive.
From Verif Require Import Base CppString Num Token Value State Show Builtins Eval LispTop Debugger SpecRun SpecVal SpecList SpecText SpecForm SpecDebug
  RunProofs ErrProofs FormProofs DebugProofs PromptProofs QuietProofs VisitProofs.
Import ListNotations.

Ltac type_it := eexists; split; [reflexivity|]; split; [exists [], []; repeat split; constructor|reflexivity].

(** ** C43: breakpoints *)
Theorem C43_set : forall main g top cur script st w rest sc b, typed st w rest -> scope_at st cur = Some sc -> break_command (s_module sc) w b ->
  exists l', added b (d_bps (st_dbg st)) l' /\
    forall o st', at_prompt main g top cur script st o st' <-> at_prompt main g top cur script (bps_set l' (answered st rest)) o st'.
Proof. exact break_adds. Qed.
Print Assumptions C43_set.
Theorem C43_clear : forall main g top cur script st rest no l', typed st ($"clear " ++ z_to_string no) rest -> line_number no -> removed no (d_bps (st_dbg st)) l' ->
  forall o st', at_prompt main g top cur script st o st' <-> at_prompt main g top cur script (bps_set l' (answered st rest)) o st'.
Proof. exact clear_one. Qed.
Print Assumptions C43_clear.
Theorem C43_clear_unknown : forall main g top cur script st rest no, typed st ($"clear " ++ z_to_string no) rest -> line_number no ->
  (no < 1 \/ Z.of_nat (length (d_bps (st_dbg st))) < no)%Z -> (Z.of_nat (length (d_bps (st_dbg st))) < 2 ^ 63)%Z ->
  forall o st', at_prompt main g top cur script st o st' <-> at_prompt main g top cur script (wrote ($"Warning: no breakpoint cleared" ++ [c_nl]) (answered st rest)) o st'.
Proof. exact clear_other. Qed.
Print Assumptions C43_clear_unknown.
Theorem C43_clear_all : forall main g top cur script st os a rest, typed st $"clear" (os ++ a :: rest) -> Forall (fun x => ~ says_yes x /\ ~ says_no x /\ forallb is_7bit x = true) os -> forallb is_7bit a = true ->
  (says_yes a -> forall o st', at_prompt main g top cur script st o st' <-> at_prompt main g top cur script (bps_set [] (wrote ($"Really delete all breakpoints? (y/n)" ++ [c_nl]) (answered st rest))) o st') /\
  (says_no a -> forall o st', at_prompt main g top cur script st o st' <-> at_prompt main g top cur script (wrote ($"Really delete all breakpoints? (y/n)" ++ [c_nl]) (answered st rest)) o st').
Proof. exact clear_all. Qed.
Print Assumptions C43_clear_all.
Theorem C43_distinct : forall st st', distinct (d_bps (st_dbg st)) ->
  (exists p s o, debug_evals p s st o st') \/ (exists h s o, visit h s st o st') \/
  (exists main g top cur script o, at_prompt main g top cur script st o st') \/
  (exists had tr c m o, session_after had tr c m st o st') -> distinct (d_bps (st_dbg st')).
Proof. exact places_distinct. Qed.
Print Assumptions C43_distinct.
Theorem C43_entry_of_place : forall bps l m b, distinct bps -> Forall (fun c => bp_module c <> []) bps -> m <> [] -> In b bps -> place b = (m, l) -> first_covering bps l m b.
Proof. exact place_first. Qed.
Print Assumptions C43_entry_of_place.
Theorem C43_no_entry : forall bps l m, Forall (fun c => bp_module c <> []) bps -> m <> [] -> ~ In (m, l) (map place bps) -> none_covering bps l m.
Proof. exact place_none. Qed.
Print Assumptions C43_no_entry.
Theorem C43_hidden_refuted : exists bps b st', distinct bps /\ In b bps /\ place b = ($"m", 3%Z) /\ bp_cond b = [] /\
  visit print_head main_sid (asking [] bps false StopAlways) (Val tt) st' /\ st_out st' = [].
Proof. exact hidden_breakpoint. Qed.
Print Assumptions C43_hidden_refuted.
Example C43_ex : let bps := [Bp 3 $"m" []; Bp 4 $"m" []] in
  let st w := asking w bps false StopAlways in
  typed (st [$" break 3 (> 1 0) "]) $"break 3 (> 1 0)" [] /\ (exists sc, scope_at (st [$" break 3 (> 1 0) "]) main_sid = Some sc /\ s_module sc = $"m") /\
  break_command $"m" $"break 3 (> 1 0)" (Bp 3 $"m" $"(> 1 0)") /\ break_command $"m" ($"b " ++ [c_dquote] ++ $"my file" ++ [c_dquote] ++ $":12") (Bp 12 $"my file" []) /\
  break_command $"m" $"b std:7" (Bp 7 $"std" []) /\
  added (Bp 3 $"m" $"(> 1 0)") bps [Bp 3 $"m" $"(> 1 0)"; Bp 4 $"m" []] /\ added (Bp 12 $"my file" []) bps (bps ++ [Bp 12 $"my file" []]) /\
  typed (st [$"clear 2"]) ($"clear " ++ z_to_string 2) [] /\ line_number 2 /\ removed 2 bps [Bp 3 $"m" []] /\
  typed (st [$"clear"; $"what"; $"Yes"; $"run"]) $"clear" ([$"what"] ++ $"Yes" :: [$"run"]) /\ ~ says_yes $"what" /\ ~ says_no $"what" /\ says_yes $"Yes" /\ says_no $"n" /\
  distinct bps /\ Forall (fun c => bp_module c <> []) bps /\ first_covering bps 4 $"m" (Bp 4 $"m" []).
Proof.
  cbv zeta. split; [eexists; split; [reflexivity|]; split; [exists [" "%char], [" "%char]; repeat split; repeat constructor|reflexivity]|].
  split; [eexists; split; [vm_compute; reflexivity|reflexivity]|].
  split. { apply (bc_cond $"m" $"break " $"3" $"m" 3 $"(> 1 0)"); [right; left; reflexivity|apply (bpl_line $"m" 3); split; discriminate|split; [discriminate|split; reflexivity]]. }
  split. { apply (bc_plain $"m" $"b " ([c_dquote] ++ $"my file" ++ [c_dquote] ++ $":12") $"my file" 12); [left; reflexivity|]. apply (bpl_quoted $"m" $"my file" 12); [split; discriminate|cbn; intuition discriminate]. }
  split. { apply (bc_plain $"m" $"b " $"std:7" $"std" 7); [left; reflexivity|]. apply (bpl_module $"m" $"std" 7); [split; discriminate|]. split; [cbn; intuition discriminate|split; [reflexivity|discriminate]]. }
  split. { left. exists [], (Bp 3 $"m" []), [Bp 4 $"m" []]. repeat split. cbn. tauto. }
  split. { right. split; [cbn; intuition discriminate|reflexivity]. }
  split; [type_it|]. split; [split; discriminate|]. split. { exists [Bp 3 $"m" []], (Bp 4 $"m" []), []. repeat split. }
  split; [type_it|]. split; [cbn; intuition discriminate|]. split; [cbn; intuition discriminate|]. split; [right; left; reflexivity|]. split; [left; reflexivity|].
  split; [repeat constructor; cbn; intuition discriminate|]. split; [repeat constructor; discriminate|].
  exists [Bp 3 $"m" []], []. split; [reflexivity|]. split; [split; [reflexivity|right; right; reflexivity]|]. repeat constructor. intros (X & _). discriminate.
Qed.

(** ** C44: stepping and stopping *)
Theorem C44_commands : forall main g top cur script st w rest n b m, typed st w rest -> depth_at st cur n -> stepping n (d_mode (st_dbg st)) w b m ->
  forall o st', at_prompt main g top cur script st o st' <-> o = Val false /\ st' = stop_set b m (answered st rest).
Proof. exact step_commands. Qed.
Print Assumptions C44_commands.
Theorem C44_stops : forall h s name t sc t1 n st, statement h name t -> scope_at st s = Some sc -> s_token sc = Some t1 -> depth_at st s n ->
  step_wanted (st_dbg st) n \/ (exists b, first_covering (d_bps (st_dbg st)) (tk_line t) (s_module sc) b /\ bp_cond b = []) ->
  forall o st', visit h s st o st' <-> exists o1, at_prompt false (s_global sc) s s [] (stopped name sc t1 st) o1 st' /\ o = dropped o1.
Proof. exact visit_stops. Qed.
Print Assumptions C44_stops.
Theorem C44_passes : forall h s name t sc n st, statement h name t -> scope_at st s = Some sc -> depth_at st s n ->
  ~ step_wanted (st_dbg st) n -> none_covering (d_bps (st_dbg st)) (tk_line t) (s_module sc) ->
  forall o st', visit h s st o st' <-> o = Val tt /\ st' = st.
Proof. exact visit_passes. Qed.
Print Assumptions C44_passes.
Theorem C44_condition : forall h s name t sc n st b v r st1, statement h name t -> scope_at st s = Some sc -> depth_at st s n ->
  ~ step_wanted (st_dbg st) n -> first_covering (d_bps (st_dbg st)) (tk_line t) (s_module sc) b -> bp_cond b <> [] ->
  debug_scripts (bp_cond b) s (s_module sc) st (Val (Some v)) st1 -> is_bool v r ->
  (r = false -> forall o st', visit h s st o st' <-> o = Val tt /\ st' = st1) /\
  (r = true -> forall sc1 t1, scope_at st1 s = Some sc1 -> s_token sc1 = Some t1 -> forall o st', visit h s st o st' <->
     exists o1, at_prompt false (s_global sc1) s s [] (stopped name sc1 t1 st1) o1 st' /\ o = dropped o1).
Proof. exact visit_condition. Qed.
Print Assumptions C44_condition.
Theorem C44_bad_condition : forall h s name t sc n st b e st1, statement h name t -> scope_at st s = Some sc -> depth_at st s n ->
  ~ step_wanted (st_dbg st) n -> first_covering (d_bps (st_dbg st)) (tk_line t) (s_module sc) b -> bp_cond b <> [] -> fine_text (bp_cond b) ->
  debug_scripts (bp_cond b) s (s_module sc) st (Throw e) st1 ->
  forall o st', visit h s st o st' <-> o = Val tt /\ st' = wrote ($"Error: bad condition for line " ++ z_to_string (tk_line t) ++ $": " ++ bp_cond b ++ [c_nl]) st1.
Proof. exact visit_bad_condition. Qed.
Print Assumptions C44_bad_condition.
Theorem C44_special_form : forall st s p h name tok args f o st', form_at st p h name tok args -> means st s name f -> fn_sp f = true -> Forall plain args ->
  debug_evals p s st o st' <-> visited_then_called h f args s (noted st s tok) o st'.
Proof. exact special_visited. Qed.
Print Assumptions C44_special_form.
Theorem C44_call : forall st s p h name tok args args0 args1 st1 f o st', form_at st p h name tok args -> means st s name f -> fn_sp f = false ->
  Forall2 (looked_up st s) args args0 -> debug_evaluated s args0 (noted st s tok) args1 st1 ->
  debug_evals p s st o st' <-> visited_then_called h f args1 s st1 o st'.
Proof. exact ordinary_visited. Qed.
Print Assumptions C44_call.
Theorem C44_out_of_main : forall st s n d, depth_at st s n -> d_mode d = StopOut 1 -> ~ step_wanted d n.
Proof. exact out_of_main. Qed.
Print Assumptions C44_out_of_main.
Example C44_ex : let st b w := asking w [Bp 3 $"m" []; Bp 4 $"m" $"(> 2 1)"] b (StopOver 1) in
  typed (st false [$"over"]) $"over" [] /\ depth_at (st false [$"over"]) main_sid 1 /\ stepping 1 StopAlways $"over" true (StopOver 1) /\ stepping 1 StopAlways $"r" false StopAlways /\
  statement print_head $"print" print_tok /\ step_wanted (st_dbg (st true [])) 1 /\ ~ step_wanted (st_dbg (st true [])) 2 /\ ~ step_wanted (st_dbg (st false [])) 1 /\
  first_covering (d_bps (st_dbg (st false []))) 3 $"m" (Bp 3 $"m" []) /\ none_covering (d_bps (st_dbg (st false []))) 5 $"m" /\ none_covering (d_bps (st_dbg (st false []))) 3 $"other" /\
  first_covering (d_bps (st_dbg (st false []))) 4 $"m" (Bp 4 $"m" $"(> 2 1)") /\
  (exists v st1, debug_scripts $"(> 2 1)" main_sid $"m" (st false []) (Val (Some v)) st1 /\ is_bool v true) /\
  (exists m i st1, debug_scripts $"(nofunction)" main_sid $"m" (st false []) (Throw (ELisp m i)) st1) /\
  form_at (st false []) (code_ 1 71) print_head $"print" (Some print_tok) [int_ 72 5] /\
  standard (st false []) main_sid $"print" /\ debug_evaluated main_sid [int_ 72 5] (st false []) [int_ 72 5] (st false []).
Proof.
  cbv zeta. split; [type_it|]. split; [eapply depth_one; vm_compute; reflexivity|]. split; [apply st_over; left; reflexivity|]. split; [apply st_run; right; left; reflexivity|].
  split; [eexists _, _; repeat split; discriminate|]. split; [split; [reflexivity|discriminate]|]. split; [intros (_ & W); vm_compute in W; congruence|]. split; [intros (W & _); discriminate|].
  split. { exists [], [Bp 4 $"m" $"(> 2 1)"]. split; [reflexivity|]. split; [split; [reflexivity|right; right; reflexivity]|constructor]. }
  split. { repeat constructor; intros (X & _); discriminate. }
  split. { repeat constructor; intros (X & Y); try discriminate; intuition discriminate. }
  split. { exists [Bp 3 $"m" []], []. split; [reflexivity|]. split; [split; [reflexivity|right; right; reflexivity]|]. repeat constructor. intros (X & _). discriminate. }
  split. { eexists. eexists. split; [apply (debug_scripts_by 30); [vm_compute; reflexivity|discriminate]|repeat split]. }
  split. { eexists. eexists. eexists. apply (debug_scripts_by 30); [vm_compute; reflexivity|discriminate]. }
  split. { eexists _, _. split; [reflexivity|]. split; [left; eexists _, _; split; [reflexivity|vm_compute; reflexivity]|repeat split]. }
  split. { apply std_main; vm_compute; repeat split; reflexivity. }
  apply dv_value; [left; discriminate|apply dv_nil].
Qed.

(** ** C53: an idle debugger *)
Theorem C53_evaluation : forall p s st o st', debug_evals p s st o st' -> idle (st_dbg st) -> ended o -> ~ spoke st st' ->
  evals p s st o st' /\ st_dbg st' = st_dbg st.
Proof. exact idle_evaluation. Qed.
Print Assumptions C53_evaluation.
Theorem C53_program : forall tr c m st o st', round_runs tr c m st o st' -> idle (st_dbg st) -> ended o -> ~ spoke st st' ->
  runs tr false c m st o st' /\ st_dbg st' = st_dbg st.
Proof. exact idle_program. Qed.
Print Assumptions C53_program.
Example C53_ex : let st := asking [] [] false StopAlways in idle (st_dbg st) /\
  exists v st', round_runs false $"(do (defn f (x) (+ x 1)) (print (f 2)))" $"m" st (Val (Some v)) st' /\ st_out st' = $"3" /\ ~ spoke st st'.
Proof.
  cbv zeta. split; [split; reflexivity|]. eexists. eexists. split; [apply (rounds_by 60); [vm_compute; reflexivity|discriminate]|]. split; [vm_compute; reflexivity|].
  intros (a & w & b & I & E). assert (L := f_equal (@length ascii) E). rewrite !app_length in L. clear E.
  assert (K : (2 <= length w)%nat) by (destruct I as [<-|[<-|[]]]; vm_compute; lia).
  match type of L with ?x = _ => assert (X : x = 1%nat) by (vm_compute; reflexivity); rewrite X in L end. lia.
Qed.

(** ** C54: sessions *)
Theorem C54_exit : forall main g top cur script st w rest, typed st w rest -> In w [$"exit"; $"quit"; $"q"; []] ->
  forall o st', at_prompt main g top cur script st o st' <-> o = (if main then Val false else Throw EStopDebugger) /\ st' = answered st rest.
Proof. exact exit_command. Qed.
Print Assumptions C54_exit.
Theorem C54_end_of_input : forall main g top cur script st, st_in st = [] ->
  forall o st', at_prompt main g top cur script st o st' <-> o = (if main then Val false else Throw EStopDebugger) /\ st' = wrote prompt st.
Proof. exact end_of_input. Qed.
Print Assumptions C54_end_of_input.
Theorem C54_restart : forall main g top cur script st rest, typed st $"restart" rest ->
  forall o st', at_prompt main g top cur script st o st' <-> o = Val true /\ st' = answered st rest.
Proof. exact restart_command. Qed.
Print Assumptions C54_restart.
Theorem C54_normal_end : forall had tr c m st v st2, round_runs tr c m (round_start c m st) (Val (Some v)) st2 ->
  forall o st', session_after had tr c m st o st' <-> session_after true tr c m (wrote ($"restart program" ++ [c_nl]) (stop_set true StopAlways st2)) o st'.
Proof. exact session_normal. Qed.
Print Assumptions C54_normal_end.
Theorem C54_stopped : forall had tr c m st st2, round_runs tr c m (round_start c m st) (Throw EStopDebugger) st2 ->
  forall o st', session_after had tr c m st o st' <-> o = Val had /\ st' = st2.
Proof. exact session_exit. Qed.
Print Assumptions C54_stopped.
Theorem C54_error : forall had tr c m st msg e st2 b st3, e = ELispBase msg \/ (exists i, e = ELisp msg i) -> fine_text msg -> round_runs tr c m (round_start c m st) (Throw e) st2 ->
  at_prompt true main_sid main_sid main_sid [] (wrote (session_report msg) st2) (Val b) st3 ->
  (b = false -> forall o st', session_after had tr c m st o st' <-> o = Val had /\ st' = st3) /\
  (b = true -> had = true -> forall o st', session_after had tr c m st o st' <-> session_after true tr c m (wrote ($"restart program" ++ [c_nl]) st3) o st') /\
  (b = true -> had = false -> forall b2 st4, at_prompt true main_sid main_sid main_sid [] (wrote ($"restart program" ++ [c_nl]) st3) (Val b2) st4 ->
     (b2 = false -> forall o st', session_after had tr c m st o st' <-> o = Val false /\ st' = st4) /\
     (b2 = true -> forall o st', session_after had tr c m st o st' <-> session_after false tr c m st4 o st')).
Proof. exact session_error. Qed.
Print Assumptions C54_error.
Theorem C54_restart_while_stopped : forall h s name t sc t1 n st rest, statement h name t -> scope_at st s = Some sc -> s_token sc = Some t1 -> depth_at st s n ->
  step_wanted (st_dbg st) n \/ (exists b, first_covering (d_bps (st_dbg st)) (tk_line t) (s_module sc) b /\ bp_cond b = []) ->
  typed st $"restart" rest -> forall o st', visit h s st o st' <-> o = Val tt /\ st' = answered (stopped name sc t1 st) rest.
Proof. exact restart_continues. Qed.
Print Assumptions C54_restart_while_stopped.
Theorem C54_restart_refuted : exists o st', round_runs false $"(do (print 1) (print 2))" $"m" (asking [$"restart"] [] true StopAlways) o st' /\ st_in st' = [] /\ 
  exists v, o = Val (Some v) /\ exists a, st_out st' = a ++ $"12".
Proof. exact restart_ignored. Qed.
Print Assumptions C54_restart_refuted.
Example C54_ex : let st w := asking w [] true StopAlways in
  typed (st [$" quit"]) $"quit" [] /\
  (exists v st2, round_runs false $"(+ 1 2)" $"m" (round_start $"(+ 1 2)" $"m" (st [$"run"])) (Val (Some v)) st2 /\ st_in st2 = []) /\
  (exists st2, round_runs false $"(+ 1 2)" $"m" (round_start $"(+ 1 2)" $"m" (st [$"q"])) (Throw EStopDebugger) st2) /\
  (exists m st2 st3, round_runs false $"(do (defn f (x) (nofunction x)) (f 1))" $"m" (round_start $"(do (defn f (x) (nofunction x)) (f 1))" $"m" (st [$"run"; $"run"; $"restart"])) (Throw (ELispBase m)) st2 /\ fine_text m /\
     at_prompt true main_sid main_sid main_sid [] (wrote (session_report m) st2) (Val true) st3) /\
  (exists st', session_after false false $"(print 7)" $"m" (st [$"run"; $"run"; $"q"]) (Val true) st' /\ exists a, st_out st' = a ++ prompt).
Proof.
  cbv zeta. split; [eexists; split; [reflexivity|]; split; [exists [" "%char], []; repeat split; repeat constructor|reflexivity]|].
  split. { eexists. eexists. split; [apply (rounds_by 40); [vm_compute; reflexivity|discriminate]|vm_compute; reflexivity]. }
  split. { eexists. apply (rounds_by 40); [vm_compute; reflexivity|discriminate]. }
  split. { eexists. eexists. eexists. split; [apply (rounds_by 60); [vm_compute; reflexivity|discriminate]|]. split; [split; [cbn; intuition discriminate|discriminate]|].
    apply (prompts_by 10); [vm_compute; reflexivity|discriminate]. }
  eexists. split; [apply (sessions_by 40); [vm_compute; reflexivity|discriminate]|].
  eexists (firstn _ _). symmetry. etransitivity; [|apply (firstn_skipn (length (st_out (snd (debugger_loop 40 40 false $"(print 7)" $"m" false (asking [$"run"; $"run"; $"q"] [] true StopAlways)))) - 15)%nat)]. f_equal.
Qed.

(** ** C55: moving and evaluating at the prompt *)
Theorem C55_frames : forall main g top cur script st w rest sc, typed st w rest -> scope_at st cur = Some sc ->
  (In w [$"up"; $"u"] -> forall o st', at_prompt main g top cur script st o st' <-> at_prompt main g top (match s_next sc with Some n => n | None => cur end) script (answered st rest) o st') /\
  (In w [$"down"; $"d"] -> forall o st', at_prompt main g top cur script st o st' <-> at_prompt main g top (match s_prev sc with Some n => n | None => cur end) script (answered st rest) o st').
Proof. exact move_commands. Qed.
Print Assumptions C55_frames.
Theorem C55_expression : forall main g top cur script st w rest sc, typed st ("("%char :: w) rest -> scope_at st cur = Some sc ->
  (forall v st1 t, debug_scripts ("("%char :: w) cur (s_module sc) (answered st rest) (Val (Some v)) st1 -> var_str v st1 = Val t -> fine_text t ->
     forall o st', at_prompt main g top cur script st o st' <-> at_prompt main g top cur (script ++ ("("%char :: w) ++ [c_nl]) (wrote ($"result=" ++ t ++ [c_nl]) st1) o st') /\
  (forall e st1, debug_scripts ("("%char :: w) cur (s_module sc) (answered st rest) (Throw e) st1 ->
     forall o st', at_prompt main g top cur script st o st' <->
       at_prompt main g top cur script (wrote (match e with ELisp m _ | ELispBase m => $"Exception: " ++ m | _ => $"Native Exception" end ++ [c_nl]) st1) o st').
Proof. exact typed_expression. Qed.
Print Assumptions C55_expression.
Example C55_ex : let st w := asking w [] true StopAlways in
  typed (st [$"up"]) $"up" [] /\ typed (st [$"(+ 1 2)"]) $"(+ 1 2)" [] /\ scope_exists (st [$"(+ 1 2)"]) main_sid /\
  (exists v st1, debug_scripts $"(+ 1 2)" main_sid $"m" (answered (asking [$"(+ 1 2)"] [] false StopAlways) []) (Val (Some v)) st1 /\ var_str v st1 = Val $"3" /\ fine_text $"3") /\
  (exists e st1, debug_scripts $"(nofunction)" main_sid $"m" (answered (asking [$"(nofunction)"] [] false StopAlways) []) (Throw e) st1).
Proof.
  cbv zeta. split; [type_it|]. split; [type_it|]. split; [eexists; vm_compute; reflexivity|].
  split. { eexists. eexists. split; [apply (debug_scripts_by 30); [vm_compute; reflexivity|discriminate]|]. split; [vm_compute; reflexivity|split; [cbn; intuition discriminate|discriminate]]. }
  eexists. eexists. apply (debug_scripts_by 30); [vm_compute; reflexivity|discriminate].
Qed.
