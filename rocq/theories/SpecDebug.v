(** Vocabulary for statements about the debugger.  Nothing here models code. *)
Require Import String Ascii List ZArith Bool Lia.
Require Import PArith FMapPositive.
From Verif Require Import Base CppString Num Token Value State Show ScopeOps Builtins Eval LispTop Debugger SpecRun SpecVal SpecList SpecForm SpecText.
Import ListNotations.

(** ** What can be observed *)

(** The prompt, and a line of input that consists of [w] and blanks around it. *)
Definition prompt : str := $"FUEL(isp)-DBG> ".
Definition typed (st : state) (w : str) (rest : list str) : Prop :=
  exists line, st_in st = line :: rest /\ trimmed line w /\ forallb is_7bit line = true.
(** The debugger has asked for a command. *)
Definition asked (st st' : state) : Prop := exists a b, st_out st' = st_out st ++ a ++ prompt ++ b.

(** Evaluating with the debugger attached; a call about to be made, with head [h] in scope [s]; the debugger
    waiting for commands in scope [cur] of the stack that ends at [top]. *)
Definition debug_evals (p : ptr) (s : sid) : state -> out result -> state -> Prop :=
  ends_with (fun n => r_eval (drun n) p s).
Definition debug_scripts (code : str) (s : sid) (modname : str) : state -> out result -> state -> Prop :=
  ends_with (fun n => r_script (drun n) code s modname).
Definition visit (h : ptr) (s : sid) : state -> out unit -> state -> Prop :=
  ends_with (fun n => r_dbg (drun n) (EvVisit h s)).
Definition at_prompt (main : bool) (g top cur : sid) (script : str) : state -> out bool -> state -> Prop :=
  ends_with (fun n => dbg_loop (drun n) n main g top cur script).

(** The state after the prompt was shown and a line was read; after something more was written; with other
    debugger settings. *)
Definition answered (st : state) (rest : list str) : state := with_in rest (with_out (st_out st ++ prompt) st).
Definition wrote (t : str) (st : state) : state := with_out (st_out st ++ t) st.
Definition bps_set (l : list bpoint) (st : state) : state :=
  with_dbg (Dbg l (d_stop (st_dbg st)) (d_mode (st_dbg st)) (d_script (st_dbg st))) st.
Definition stop_set (b : bool) (m : stopat) (st : state) : state :=
  with_dbg (Dbg (d_bps (st_dbg st)) b m (d_script (st_dbg st))) st.

(** ** Where the program is *)

(** The number of frames from scope [s] to the bottom of the stack; frames further down are older, that is, have
    smaller numbers. *)
Inductive depth_at (st : state) : sid -> Z -> Prop :=
| depth_one : forall s sc, scope_at st s = Some sc -> s_prev sc = None -> depth_at st s 1
| depth_more : forall s sc p d, scope_at st s = Some sc -> s_prev sc = Some p -> (p < s)%positive -> depth_at st p d -> depth_at st s (d + 1).

(** A statement: its head is the word [name], read at token [t]. *)
Definition statement (h : ptr) (name : str) (t : token) : Prop :=
  exists i v, h = P i (OVar v) /\ is_sym v name /\ v_tok v = Some t /\ (0 <= tk_line t < 2 ^ 64)%Z.
(** What is shown when the program stops there. *)
Definition announcement (name modname : str) (t : token) : str :=
  $"--> " ++ name ++ $" line=" ++ z_to_string (tk_line t) ++ $" start=" ++ z_to_string (tk_start t) ++
  $" stop=" ++ z_to_string (tk_stop t) ++ $" module=" ++ modname ++ $" token=" ++ token_to_string t ++ [c_nl].

(** ** Breakpoints *)
Definition place (b : bpoint) : str * Z := (bp_module b, bp_line b).
Definition distinct (bps : list bpoint) : Prop := NoDup (map place bps).
(** The breakpoint is meant for line [l] of module [m]; a missing module name stands for every module. *)
Definition covers (b : bpoint) (l : Z) (m : str) : Prop :=
  bp_line b = l /\ (bp_module b = [] \/ m = [] \/ bp_module b = m).
Definition unconditional (d : dbg) : Prop := Forall (fun b => bp_cond b = []) (d_bps d).

Definition added (b : bpoint) (l l' : list bpoint) : Prop :=
  (exists l1 c l2, l = l1 ++ c :: l2 /\ place c = place b /\ ~ In (place b) (map place l1) /\ l' = l1 ++ b :: l2) \/
  (~ In (place b) (map place l) /\ l' = l ++ [b]).
Definition removed (no : Z) (l l' : list bpoint) : Prop :=
  exists l1 c l2, l = l1 ++ c :: l2 /\ no = (Z.of_nat (length l1) + 1)%Z /\ l' = l1 ++ l2.

(** The words of a break command in module [m] and the breakpoint they mean. *)
Definition line_number (z : Z) : Prop := (0 <= z <= 2147483647)%Z.
Definition module_word (t : str) : Prop :=
  ~ In " "%char t /\ match t with c :: _ => is_space c = false /\ c <> c_dquote | [] => True end.
Definition condition_text (t : str) : Prop := t <> [] /\ tight t.
Inductive break_place (m : str) : str -> str -> Z -> Prop :=
| bpl_line : forall z, line_number z -> break_place m (z_to_string z) m z
| bpl_module : forall name z, line_number z -> module_word name -> break_place m (name ++ $":" ++ z_to_string z) name z
| bpl_quoted : forall name z, line_number z -> ~ In c_dquote name ->
    break_place m ([c_dquote] ++ name ++ [c_dquote] ++ $":" ++ z_to_string z) name z.
Inductive break_command (m : str) : str -> bpoint -> Prop :=
| bc_plain : forall w pl name z, In w [$"b "; $"break "] -> break_place m pl name z ->
    break_command m (w ++ pl) (Bp z name [])
| bc_cond : forall w pl name z c, In w [$"b "; $"break "] -> break_place m pl name z -> condition_text c ->
    break_command m (w ++ pl ++ $" " ++ c) (Bp z name c).

(** An answer to a question, in small or capital letters. *)
Definition capital (c : ascii) : ascii :=
  if ((97 <=? nat_of_ascii c) && (nat_of_ascii c <=? 122))%nat then ascii_of_nat (nat_of_ascii c - 32) else c.
Definition says_yes (a : str) : Prop := In (map capital a) [$"Y"; $"YES"].
Definition says_no (a : str) : Prop := In (map capital a) [$"N"; $"NO"].

(** ** Stepping *)

(** Commands that let the program go on, given in a frame at depth [n], and what is remembered: whether to stop
    and where. *)
Inductive stepping (n : Z) (m : stopat) : str -> bool -> stopat -> Prop :=
| st_step : forall w, In w [$"step"; $"s"] -> stepping n m w true StopAlways
| st_over : forall w, In w [$"over"; $"v"] -> stepping n m w true (StopOver n)
| st_out_ : forall w, In w [$"out"; $"o"] -> stepping n m w true (StopOut n)
| st_run : forall w, In w [$"run"; $"r"] -> stepping n m w false m.

(** The program shall stop at depth [n] because of the last such command. *)
Definition step_wanted (d : dbg) (n : Z) : Prop :=
  d_stop d = true /\ match d_mode d with StopAlways => True | StopOver k => (n <= k)%Z | StopOut k => (n < k)%Z end.
(** [b] is the first breakpoint for line [l] of module [m]. *)
Definition first_covering (bps : list bpoint) (l : Z) (m : str) (b : bpoint) : Prop :=
  exists l1 l2, bps = l1 ++ b :: l2 /\ covers b l m /\ Forall (fun c => ~ covers c l m) l1.
Definition none_covering (bps : list bpoint) (l : Z) (m : str) : Prop := Forall (fun c => ~ covers c l m) bps.

(** The outcome of the dialogue in the middle of a program: the program goes on, or the error stays. *)
Definition dropped (o : out bool) : out unit :=
  match o with Val _ => Val tt | Throw e => Throw e | Undef u => Undef u | Unmod u => Unmod u | NoFuel => NoFuel end.

(** The state in which the dialogue starts. *)
Definition stopped (name : str) (sc : scope) (t : token) (st : state) : state :=
  wrote (announcement name (s_module sc) t) (stop_set false (d_mode (st_dbg st)) st).

(** ** Sessions *)
Definition session_after (had tracing : bool) (script modname : str) : state -> out bool -> state -> Prop :=
  ends_with (fun n => debugger_loop n n tracing script modname had).
(** The state in which a round starts: a fresh interpreter that keeps the files, the input, the output and the
    debugger settings; for a script given on the command line its text is remembered. *)
Definition round_start (script modname : str) (st : state) : state :=
  with_dbg (Dbg (d_bps (st_dbg st)) (d_stop (st_dbg st)) (d_mode (st_dbg st))
                (if str_eqb modname $"command-line" then script else d_script (st_dbg st)))
    (with_out (st_out st) (init_state (st_in st) (st_files st) (st_env st))).
Definition round_runs (tracing : bool) (script modname : str) : state -> out result -> state -> Prop :=
  ends_with (fun n => lisp_eval (drun n) tracing false script main_sid modname).

(** ** A debugger that has nothing to do *)

(** No breakpoint is set and no step command waits. *)
Definition idle (d : dbg) : Prop := d_stop d = false /\ d_bps d = [].
(** The debugger has asked for a command or has reported an error. *)
Definition spoke (st st' : state) : Prop :=
  exists a w b, In w [prompt; $"EXCEPTION: "] /\ st_out st' = st_out st ++ a ++ w ++ b.
(** The evaluation ended with a result or an error. *)
Definition ended {A} (o : out A) : Prop := match o with Val _ | Throw _ => True | _ => False end.

(** ** Evaluating with the debugger *)
Definition debug_calls (f : fnval) (args : list ptr) (s : sid) : state -> out result -> state -> Prop :=
  ends_with (fun n => r_call (drun n) f args s).
(** The arguments of an ordinary function, from left to right. *)
Inductive debug_evaluated (s : sid) : list ptr -> state -> list ptr -> state -> Prop :=
| dv_nil : forall st, debug_evaluated s [] st [] st
| dv_value : forall i v ps st qs st', settled v -> debug_evaluated s ps st qs st' ->
    debug_evaluated s (P i (OVar v) :: ps) st (P i (OVar v) :: qs) st'
| dv_list : forall i l ps st v st1 st2 q qs st3, debug_evals (P i (OList l)) s st (Val (Some v)) st1 -> settled v -> boxed v st1 q st2 ->
    debug_evaluated s ps st2 qs st3 -> debug_evaluated s (P i (OList l) :: ps) st (q :: qs) st3.
(** The expression (name args...) with the word [h] as its head. *)
Definition form_at (st : state) (p h : ptr) (name : str) (tok : option token) (args : list ptr) : Prop :=
  exists j v, h = P j (OVar v) /\ expr_list st p (h :: args) /\ is_sym v name /\ v_tok v = tok.
(** First [h] is visited in scope [s], then [f] is called; if the visit ends with an error, there is no call. *)
Definition visited_then_called (h : ptr) (f : fnval) (args : list ptr) (s : sid) (st : state) (o : out result) (st' : state) : Prop :=
  (exists st1, visit h s st (Val tt) st1 /\ debug_calls f args s st1 o st') \/
  (exists o1, visit h s st o1 st' /\ match o1, o with
     | Throw e, Throw e' => e = e' | Undef u, Undef u' => u = u' | Unmod u, Unmod u' => u = u' | _, _ => False end).
(** What is written when an error ends the program. *)
Definition session_report (msg : str) : str :=
  [c_nl] ++ $"Exception: EXCEPTION: " ++ msg ++ [c_nl; c_nl] ++ $"Stack:" ++ [c_nl] ++ $"<TODO>" ++ [c_nl].

(** ** States used by the examples *)
(** Stopped in the main program at the word print in line 3 of module m. *)
Definition print_tok : token := Token TkSymbol (TvStr $"print") 7 12 3.
Definition print_head : ptr := P 71 (OVar (MkVar TSym (Some (OString $"print")) UnqNone (Some print_tok))).
Definition asking (inp : list str) (bps : list bpoint) (stop : bool) (mode : stopat) : state :=
  with_dbg (Dbg bps stop mode [])
    (with_code [(71%positive, [print_head; int_ 72 5]); (72%positive, [sym_ 73 $"do"; code_ 74 71])]
       (snd (mod_scope main_sid (fun sc => set_module $"m" (set_token (Some print_tok) sc)) (init_state inp [] (Env (fun _ => true) None []))))).
