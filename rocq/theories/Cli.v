(** The command line program: fuel.cpp 114-136, 138-447. *)
Require Import String Ascii List ZArith Bool Lia.
Require Import PArith FMapPositive.
From Verif Require Import Base CppString Num Token Tokenizer Parser Value State Show ScopeOps Builtins Table Eval LispTop Debugger.
Import ListNotations.

(** What the program finds at its start: the text of GetCompilerInfo (Lisp.cpp 53-112), the text of the
    seconds that pass while it runs (fuel.cpp 351), and whether TryGetDebugger (fuel.cpp 407-431) finds a debugger. *)
Record host := Host { h_compiler : str; h_seconds : str; h_debugger : bool }.

(** ContainsOptionAndRemove, fuel.cpp 114-124: the answer and the words that are left. *)
Fixpoint remove_first (w : str) (args : list str) : list str :=
  match args with
  | [] => []
  | a :: args' => if str_eqb a w then args' else a :: remove_first w args'
  end.
Definition take_option (w : str) (args : list str) : bool * list str :=
  (existsb (fun a => str_eqb a w) args, remove_first w args).

(** GetScriptFilesFromProgramArgs, fuel.cpp 131-136. *)
Definition script_files (args : list str) : list str := filter (fun a => negb (prefixb $"-" a)) args.

(** The words from the first one that starts with -l= to the last one: fuel.cpp 218. *)
Fixpoint lib_args (args : list str) : list str :=
  match args with
  | [] => []
  | a :: args' => if prefixb $"-l=" a then args else lib_args args'
  end.

(** The local variables of MainExtended, fuel.cpp 147-278, when the words have been looked at. *)
Record options := Options {
  o_time : bool; o_expand : bool; o_verbose : bool; o_trace : bool; o_load : bool; o_shell : bool; o_debug : bool;
  o_script : str; o_lib : option str; o_files : list str }.
Inductive plan :=
| PUsage | PVersion | PPaths | PUnknown (lib : option str) (rest : list str) | PRun (o : options).

(** MainExtended, fuel.cpp 147-278.  Reading the first element of an empty vector (fuel.cpp 214) is undefined. *)
Definition parse_args (debugger : bool) (args : list str) : out plan :=
  match args with
  | [] => Val PUsage
  | _ =>
    let '(time, a1) := take_option $"-m" args in
    let '(v, a2) := take_option $"-v" a1 in
    if v then Val PVersion else
    let '(h, a3) := take_option $"-h" a2 in
    if h then Val PUsage else
    let '(doc, a4) := take_option $"--doc" a3 in
    let '(html, a5) := take_option $"--html" a4 in
    let '(expand, a6) := take_option $"--macro-expand" a5 in
    let '(verbose, a7) := take_option $"-x" a6 in
    let '(t, a8) := take_option $"-t" a7 in
    let '(e, a9) := take_option $"-e" a8 in
    let? script :=
      if e then match script_files args with f :: _ => Val f | [] => Undef UBIndex end
      else Val (if html then $"(htmldoc)" else if doc then $"(doc)" else []) in
    match lib_args args with
    | _ :: _ :: _ => Val PPaths
    | libs =>
      let '(lib, a10) := match libs with w :: _ => (Some (skipn 3 w), remove_first w a9) | [] => (None, a9) end in
      let '(shell, a11) := if debugger then take_option $"-i" a10 else (false, a10) in
      let '(debug, a12) := if debugger then take_option $"-d" a11 else (false, a11) in
      let files := script_files args in
      match fold_left (fun a f => remove_first f a) files a12 with
      | [] => Val (PRun (Options time expand verbose (doc || html || t) (negb (doc || html || e)) shell debug script lib files))
      | rest => Val (PUnknown lib rest)
      end
    end
  end.

(** Usage, fuel.cpp 358-398. *)
Definition usage_lines (debugger : bool) : list str :=
  about_lines ++
  [ $"usage:"; $">fuel [options] [script_file_name]"; []; $"options:";
    $"  -v          : show version";
    $"  -h          : show help";
    $"  -e " ++ [c_dquote] ++ $"script" ++ [c_dquote] ++ $" : execute given script";
    $"  -l=" ++ [c_dquote] ++ $"path" ++ [c_dquote] ++ $"   : path to library";
    $"  --doc       : show language documentation";
    $"  --html      : show language documentation in html";
    $"  --macro-expand : expand all macros and show resulting code";
    $"  -m          : measure execution time";
    $"  -t          : enable tracing";
    $"  -x          : exhaustive error output" ] ++
  (if debugger then [ $"  -i          : interactive shell"; $"  -d          : start debugger" ]
   else [ []; $"Info: no debugger support installed !" ]) ++ [ [] ].

(** InteractiveLoopHeader, fuel.cpp 400-405. *)
Definition header_lines : list str :=
  version_lines ++ [ $"Type " ++ [c_dquote] ++ $"help" ++ [c_dquote] ++ $" for informations."; [] ].

(** LispUtils_LibraryPath, fuel.cpp 224. *)
Definition set_lib (l : option str) : M unit := fun st =>
  (Val tt, match l with
           | Some p => State (st_vecs st) (st_dicts st) (st_scopes st) (st_nid st) (st_nloc st) (st_nsid st) (st_out st) (st_in st) (st_files st)
                         (Env (e_canwrite (st_env st)) (e_fuelpath (st_env st)) p) (st_dbg st)
           | None => st
           end).

(** InteractiveLoop called with no scope, fuel.cpp 287 and Debugger.cpp 59-78: CreateDefaultScope makes a
    global scope that no debugger is attached to. *)
Definition shell_loop (n : nat) (tracing : bool) : M unit :=
  fresh_round ;;
  mod_scope main_sid (set_tracing tracing) ;;
  let! b := dbg_loop (run n) n true main_sid main_sid main_sid [] in ret tt.

(** fuel.cpp 291-310: the result is what [debugger_loop] tells about it. *)
Definition debug_loop (n : nat) (o : options) : M bool :=
  let file := match o_files o with f :: _ => f | [] => [] end in
  let! code := match o_script o with [] => reads (read_file file) | s => ret s end in
  let name := match o_script o with [] => file | _ => $"command-line" end in
  write_lines header_lines ;;
  debugger_loop n n (o_trace o) code name false.

(** fuel.cpp 314-339; CreateDefaultScope in Lisp::Eval makes a new interpreter for every script. *)
Definition eval_one (n : nat) (verbose tracing expand : bool) (code name : str) : M result :=
  fresh_round ;; save_eval n verbose tracing expand code name.
Fixpoint load_files (n : nat) (o : options) (files : list str) (last : result) : M result :=
  match files with
  | [] => ret last
  | f :: files' =>
    let! code := reads (read_file f) in
    let! r := eval_one n (o_verbose o) (o_trace o) (o_expand o) code f in
    load_files n o files' r
  end.

(** result->ToString() after the scripts, fuel.cpp 341-352. *)
Definition result_text (r : result) : M str := let! v := some_var r in reads (var_str v).
Definition closing (h : host) (o : options) (text : M str) : M unit :=
  (if o_expand o then let! t := text in write_line ($"Macro expand: " ++ t) else ret tt) ;;
  (if o_trace o then let! t := text in write_line ($"Result=" ++ t) else ret tt) ;;
  (if o_time o then write_fmt $"Execution time = {0} s" [h_seconds h] else ret tt).

(** fuel.cpp 280-354.  The value of a debugging session is not modelled, only whether there is one. *)
Definition run_options (h : host) (n : nat) (o : options) : M unit :=
  set_lib (o_lib o) ;;
  (if h_debugger h then set_dbg (fun _ => Dbg [] true StopAlways []) else ret tt) ;;
  (if o_shell o then write_lines header_lines ;; shell_loop n (o_trace o) else ret tt) ;;
  if o_debug o then
    let! had := debug_loop n o in
    closing h o (if had then unmod $"value of a debugging session" else undef UBNullDeref)
  else
    let! r :=
      if o_load o && negb (o_shell o) then load_files n o (o_files o) (Some vundef)
      else if negb (str_eqb (o_script o) []) && negb (o_shell o) then eval_one n false false (o_expand o) (o_script o) $"cmdline"
      else ret (Some vundef) in
    closing h o (result_text r).

(** MainExtended, called by fuel_main (fuel.cpp 437-447) with the words after the program name. *)
Definition fuel_main (h : host) (n : nat) (args : list str) : M unit :=
  let! p := lift (parse_args (h_debugger h) args) in
  match p with
  | PUsage => write_lines (usage_lines (h_debugger h))
  | PVersion => write_line ($"fuel v0.99.6 from 16.12.2023 compiled with " ++ h_compiler h)
  | PPaths => write_line $"Error: only one library path is supported"
  | PUnknown lib rest => set_lib lib ;; write_line ($"Error: unknown option(s) " ++ concat (map (fun w => w ++ $" ") rest))
  | PRun o => run_options h n o
  end.
