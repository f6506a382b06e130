(** Vocabulary for statements about the command line program.  Nothing here models code. *)
Require Import String Ascii List ZArith Bool Lia.
Require Import PArith FMapPositive.
From Verif Require Import Base CppString Num Token Value State Show Builtins Eval LispTop Debugger Cli SpecRun SpecText SpecDebug.
Import ListNotations.

(** The program called with the words [args]. *)
Definition mains (h : host) (args : list str) : state -> out unit -> state -> Prop :=
  ends_with (fun n => fuel_main h n args).

(** ** The words *)
Definition dashed (w : str) : Prop := exists r, w = $"-" ++ r.
Definition path_word (w : str) : Prop := exists p, w = $"-l=" ++ p.
(** The dashed words [os] and the other words [fs] of [args], in order. *)
Inductive parted : list str -> list str -> list str -> Prop :=
| pa_nil : parted [] [] []
| pa_option : forall w a os fs, dashed w -> parted a os fs -> parted (w :: a) (w :: os) fs
| pa_file : forall w a os fs, ~ dashed w -> parted a os fs -> parted (w :: a) os (w :: fs).
(** Dashed words that have a meaning besides -v, -h and -l=path. *)
Definition meant (debugger : bool) : list str :=
  [$"-m"; $"--macro-expand"; $"-x"; $"-t"; $"-e"; $"--doc"; $"--html"] ++ (if debugger then [$"-i"; $"-d"] else []).
Definition has (os : list str) (w : str) : bool := existsb (str_eqb w) os.
(** The words of [os] that are not the first occurrence of a word of [known], given the words [before]. *)
Inductive extra (known before : list str) : list str -> list str -> Prop :=
| ex_nil : extra known before [] []
| ex_used : forall w os xs, In w known -> ~ In w before -> extra known (w :: before) os xs -> extra known before (w :: os) xs
| ex_extra : forall w os xs, ~ In w known \/ In w before -> extra known (w :: before) os xs -> extra known before (w :: os) (w :: xs).
(** The option [w] is explained in a line of [text]; a blank or a quotation mark follows it. *)
Definition listed (w text : str) : Prop := exists c, In c [" "%char; c_dquote] /\ occurs ([c_nl] ++ $"  " ++ w ++ [c]) text.
(** A path for the library, given as the last word. *)
Definition with_path (lib : option str) (args : list str) : list str :=
  match lib with Some p => args ++ [$"-l=" ++ p] | None => args end.
(** Words the program understands: options [os], each at most once, script files [fs], maybe a path at the end. *)
Inductive understood (debugger : bool) : list str -> list str -> list str -> option str -> Prop :=
| understand : forall a os fs lib, parted a os fs -> NoDup os -> incl os (meant debugger) -> with_path lib a <> [] ->
    understood debugger (with_path lib a) os fs lib.

(** ** What is done *)
(** Words from the operating system contain no NUL. *)
Definition c_string (t : str) : Prop := ~ In c_nul t.
(** The text of a file; a missing file counts as empty. *)
Inductive file_text (st : state) (f : str) : str -> Prop :=
| ft_there : forall l1 t l2, st_files st = l1 ++ (f, t) :: l2 -> ~ In f (map fst l1) -> file_text st f t
| ft_missing : ~ In f (map fst (st_files st)) -> file_text st f [].
(** The library path set; interpreter and debugger as they are at the start. *)
Definition lib_set (lib : option str) (st : state) : state :=
  let e := st_env st in
  State (st_vecs st) (st_dicts st) (st_scopes st) (st_nid st) (st_nloc st) (st_nsid st) (st_out st) (st_in st) (st_files st)
    (match lib with Some p => Env (e_canwrite e) (e_fuelpath e) p | None => e end) (st_dbg st).
Definition prepared (h : host) (lib : option str) (st : state) : state :=
  with_dbg (if h_debugger h then Dbg [] true StopAlways [] else st_dbg st) (lib_set lib st).
(** A fresh interpreter: only the files, the input, the output and the debugger stay. *)
Definition renewed (st : state) : state :=
  with_dbg (st_dbg st) (with_out (st_out st) (init_state (st_in st) (st_files st) (st_env st))).
(** An outcome that is not a value, of whatever type. *)
Inductive same_failure {A B} : out A -> out B -> Prop :=
| sf_throw : forall e, same_failure (Throw e) (Throw e)
| sf_undef : forall u, same_failure (Undef u) (Undef u)
| sf_unmod : forall u, same_failure (Unmod u) (Unmod u).
(** The files evaluated one after the other, each with SaveEval in a fresh interpreter; [r] is the result so far.
    A failure SaveEval does not catch ends everything. *)
Inductive loaded (vb tr ex : bool) : list str -> result -> state -> out result -> state -> Prop :=
| ld_nil : forall r st, loaded vb tr ex [] r st (Val r) st
| ld_file : forall f fs r st t r1 st1 o st', file_text st f t -> saves vb tr ex t f (renewed st) (Val r1) st1 ->
    loaded vb tr ex fs r1 st1 o st' -> loaded vb tr ex (f :: fs) r st o st'
| ld_fails : forall f fs r st t o1 o st', file_text st f t -> saves vb tr ex t f (renewed st) o1 st' -> same_failure o1 o ->
    loaded vb tr ex (f :: fs) r st o st'.
(** None of the options [ws] is given. *)
Definition none_of (ws os : list str) : Prop := forall w, In w ws -> ~ In w os.
(** The expression to evaluate instead of files. *)
Inductive command_text : list str -> list str -> str -> Prop :=
| ct_given : forall os fs c, In $"-e" os -> command_text os (c :: fs) c
| ct_html : forall os fs, ~ In $"-e" os -> In $"--html" os -> command_text os fs $"(htmldoc)"
| ct_doc : forall os fs, ~ In $"-e" os -> ~ In $"--html" os -> In $"--doc" os -> command_text os fs $"(doc)".
(** The program of a debugging session and its name. *)
Inductive debugged (st : state) (os fs : list str) : str -> str -> Prop :=
| dg_command : forall c, command_text os fs c -> c <> [] -> debugged st os fs c $"command-line"
| dg_file : forall f fs' t, none_of [$"-e"; $"--doc"; $"--html"] os -> fs = f :: fs' -> c_string f -> file_text st f t -> debugged st os fs t f.
(** What is written at the end, where [t] is the text of the result. *)
Definition line (t : str) : str := t ++ [c_nl].
Definition text_wanted (os : list str) : bool := has os $"--macro-expand" || (has os $"-t" || has os $"--doc" || has os $"--html").
Definition last_lines (h : host) (os : list str) (t : str) : str :=
  (if has os $"--macro-expand" then line ($"Macro expand: " ++ t) else []) ++
  (if has os $"-t" || has os $"--doc" || has os $"--html" then line ($"Result=" ++ t) else []) ++
  (if has os $"-m" then line ($"Execution time = " ++ h_seconds h ++ $" s") else []).
(** What greets the user of the shell and of the debugger. *)
Definition greeting : str :=
  line [] ++ line $"FUEL(isp) v0.99.6 (for C++) from 16.12.2023, (C) by Michael Neuroth" ++ line [] ++
  line ($"Type " ++ [c_dquote] ++ $"help" ++ [c_dquote] ++ $" for informations.") ++ line [].
(** The shell: commands are read in the global scope of a fresh interpreter without a debugger. *)
Definition in_shell (cur : sid) (script : str) : state -> out bool -> state -> Prop :=
  ends_with (fun n => dbg_loop (run n) n true main_sid main_sid cur script).
Definition shell_start (tr : bool) (st : state) : state := snd (mod_scope main_sid (set_tracing tr) (renewed st)).
(** An expression typed there, evaluated without a debugger. *)
Definition plain_scripts (code : str) (s : sid) (modname : str) : state -> out result -> state -> Prop :=
  ends_with (fun n => r_script (run n) code s modname).

(** States used by the examples: two files, some input. *)
Definition with_files (inp : list str) : state :=
  init_state inp [($"a.fuel", $"(do (println 1) (def x 5))"); ($"b.fuel", $"(do (println x) (println 2))"); ($"m.fuel", $"(do (define-macro m (x) (+ x 1)) (m 2))")] (Env (fun _ => true) None []).
Definition linux (d : bool) : host := Host $"GCC v12.2.0, x86 64Bit" $"0.001000" d.
