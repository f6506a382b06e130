(** The debugger: CppLispDebugger/Debugger.cpp, and the evaluator with it attached. *)
Require Import String Ascii List ZArith Bool Lia.
Require Import PArith FMapPositive.
From Verif Require Import Base CppString Num Token Tokenizer Parser Value State Show ScopeOps Builtins Table Eval LispTop.
Import ListNotations.

(** Prompt and DbgPrompt, Debugger.cpp 35-37. *)
Definition dbg_prompt : str := $"FUEL(isp)-DBG> ".

(** Conversion of an int to size_t, Debugger.cpp 397-406. *)
Definition to_size (z : Z) : Z := (z mod 2 ^ 64)%Z.

(** The members of LispDebugger, Debugger.h 51-104. *)
Definition the_dbg : M dbg := reads (fun st => Val (st_dbg st)).
Definition set_dbg (f : dbg -> dbg) : M unit := fun st => (Val tt, with_dbg (f (st_dbg st)) st).
Definition set_bps (b : list bpoint) (d : dbg) : dbg := Dbg b (d_stop d) (d_mode d) (d_script d).
Definition set_stop (b : bool) (d : dbg) : dbg := Dbg (d_bps d) b (d_mode d) (d_script d).
Definition set_mode (m : stopat) (d : dbg) : dbg := Dbg (d_bps d) true m (d_script d).
Definition set_script (t : str) (d : dbg) : dbg := Dbg (d_bps d) (d_stop d) (d_mode d) t.

(** ** Breakpoints *)

(** IsSameModule, Debugger.cpp 449-462. *)
Definition same_module (m1 m2 : str) : bool :=
  match m1, m2 with
  | [], _ | _, [] => true
  | _, _ => str_eqb m1 m2
  end.

(** AddBreakpoint(lineNo, moduleName, condition), Debugger.cpp 380-395. *)
Fixpoint add_breakpoint (b : bpoint) (bps : list bpoint) : list bpoint :=
  match bps with
  | [] => [b]
  | c :: bps' =>
    if (bp_line c =? bp_line b)%Z && str_eqb (bp_module c) (bp_module b) then b :: bps'
    else c :: add_breakpoint b bps'
  end.

(** ClearBreakpoint(no), Debugger.cpp 397-406: [no - 1] is computed in int and then converted to
    size_t.  None: no such breakpoint. *)
Definition clear_breakpoint (no : Z) (bps : list bpoint) : out (option (list bpoint)) :=
  if negb (in_int (no - 1)) then Undef UBOverflow
  else
    let i := to_size (no - 1) in
    if (i <? Z.of_nat (length bps))%Z
    then Val (Some (firstn (Z.to_nat i) bps ++ skipn (S (Z.to_nat i)) bps))
    else Val None.

(** The test in the loop of HitsBreakpoint, Debugger.cpp 353-354. *)
Definition bp_at (line : Z) (modname : str) (b : bpoint) : bool :=
  same_module (bp_module b) modname && (line =? bp_line b)%Z.

(** HitsBreakpoint with scope = null, i.e. HasBreakpointAt, Debugger.cpp 349-378. *)
Definition has_breakpoint (line : Z) (modname : str) (d : dbg) : bool :=
  match List.find (bp_at line modname) (d_bps d) with Some _ => true | None => false end.

(** HitsBreakpoint with a scope, Debugger.cpp 349-373. *)
Definition hits_breakpoint (R : recs) (line : Z) (s : sid) : M bool :=
  let! sc := reads (get_scope s) in
  let! d := the_dbg in
  match List.find (bp_at line (s_module sc)) (d_bps d) with
  | None => ret false
  | Some b =>
    match bp_cond b with
    | [] => ret true
    | cond =>
      try_catch (let! r := r_script R cond s (s_module sc) in
                 let! v := some_var r in
                 reads (bool_value v))
        (fun _ => Some (write_fmt $"Error: bad condition for line {0}: {1}" [z_to_string (bp_line b); cond] ;;
                        ret false))
    end
  end.

(** ** Stepping *)

(** GetCallStackSize, Scope.cpp 176-186. *)
Definition depth_of (s : sid) : M Z :=
  let! scs := reads (call_stack s) in ret (Z.of_nat (length scs)).

(** The functions installed as IsStopStepFcn, Debugger.cpp 346, 415, 422, 429. *)
Definition stops_at (m : stopat) (s : sid) : M bool :=
  match m with
  | StopAlways => ret true
  | StopOver d => let! k := depth_of s in ret (k <=? d)%Z
  | StopOut d => let! k := depth_of s in ret (k <=? d - 1)%Z
  end.

(** NeedsBreak, Debugger.cpp 276-284. *)
Definition needs_break (R : recs) (line : Z) (s : sid) : M bool :=
  let! d := the_dbg in
  let! b1 := if d_stop d then stops_at (d_mode d) s else ret false in
  let! b := if b1 then ret true else hits_breakpoint R line s in
  if b then set_dbg (set_stop false) ;; ret true else ret false.

(** ** Commands: Debugger.cpp 94-243 *)
Inductive command :=
| CExit | CHelp | CAbout | CFuncs | CMacros | CBuiltins | CDoc | CSearchDoc | CModules | CClear
| CStack | CCode | CShow | CBreakpoint | CUp | CDown | CStep | COver | COut | CRun | CLocals
| CGlobals | CRestart | CVersion | CEval.

(** The chain of tests in InteractiveLoop, Debugger.cpp 94-243. *)
Definition command_of (cmd : str) : command :=
  let is t := str_eqb cmd t in
  let starts t := prefixb t cmd in
  if str_eqb cmd [] || is $"exit" || is $"quit" || is $"q" then CExit
  else if is $"help" || is $"h" then CHelp
  else if is $"about" then CAbout
  else if is $"funcs" then CFuncs
  else if is $"macros" then CMacros
  else if is $"builtins" then CBuiltins
  else if starts $"doc" then CDoc
  else if starts $"searchdoc" then CSearchDoc
  else if is $"modules" then CModules
  else if starts $"clear" then CClear
  else if is $"stack" || starts $"k" then CStack
  else if is $"code" || starts $"c" then CCode
  else if starts $"list" || starts $"t" then CShow
  else if starts $"break " || starts $"b " then CBreakpoint
  else if is $"up" || starts $"u" then CUp
  else if is $"down" || starts $"d" then CDown
  else if is $"step" || is $"s" then CStep
  else if is $"over" || is $"v" then COver
  else if is $"out" || is $"o" then COut
  else if is $"run" || is $"r" then CRun
  else if is $"locals" || starts $"l" then CLocals
  else if is $"globals" || starts $"g" then CGlobals
  else if is $"restart" then CRestart
  else if is $"version" || is $"ver" then CVersion
  else CEval.

(** GetStringLiteral, Debugger.cpp 560-580: the text before the first quote and its length. *)
Fixpoint string_literal (t : str) : str :=
  match t with
  | [] => []
  | c :: t' => if Ascii.eqb c c_dquote then [] else c :: string_literal t'
  end.

(** LastIndexOf, csstring.h 177-180: find_last_of with one character. *)
Fixpoint last_index (c : ascii) (t : str) : option nat :=
  match t with
  | [] => None
  | d :: t' =>
    match last_index c t' with
    | Some p => Some (S p)
    | None => if Ascii.eqb d c then Some O else None
    end
  end.

Definition c_colon : ascii := ascii_of_nat 58.

(** The text of a break command, AddBreakpoint(debugger, cmd, currentModuleName), Debugger.cpp 511-558:
    None: "no breakpoint set or modified".  ConvertToInt never fails (614-630), so
    a text without digits means line 0. *)
Definition parse_break (cmd modname : str) : out (option bpoint) :=
  let? rest := match find $" " cmd with
               | Some p => let? t := substr_from cmd p in Trim t
               | None => Throw EOutOfRange
               end in
  let? parts :=
    match rest with
    | c :: more =>
      if Ascii.eqb c c_dquote then
        let name := string_literal more in
        let? rest1 := substr_from rest (length name + 2) in
        match rest1 with
        | d :: r => if Ascii.eqb d c_colon then let? a := Split r $" " in Val (a, name, rest1)
                    else Val ([], name, rest1)
        | [] => Val ([], name, rest1)
        end
      else let? a := Split rest $" " in Val (a, modname, rest)
    | [] => let? a := Split rest $" " in Val (a, modname, rest)
    end in
  let '(args, name, rest1) := parts in
  let? cond := match find $" " rest1 with
               | Some p => let? t := substr_from rest1 p in Trim t
               | None => Val []
               end in
  match args with
  | [] => Val None
  | a :: _ =>
    let? ln := match last_index c_colon a with
               | Some p => let? t := substr_from a (S p) in Val (t, firstn p a)
               | None => Val (a, name)
               end in
    let? no := atoi (cstr (fst ln)) in
    Val (Some (Bp (to_size no) (snd ln) cond))
  end.

Definition cmd_break (cmd modname : str) : M unit :=
  let! b := lift (parse_break cmd modname) in
  match b with
  | Some b => set_dbg (fun d => set_bps (add_breakpoint b (d_bps d)) d)
  | None => write_line $"Warning: no breakpoint set or modified"
  end.

(** The loop asking for confirmation, Debugger.cpp 494-503.  At the end of the input ReadLine
    returns the empty text for ever. *)
Fixpoint confirm (k : nat) : M bool :=
  match k with
  | O => no_fuel
  | S k' =>
    let! l := read_line in
    let! a := lift (ToUpper l) in
    if str_eqb a $"Y" || str_eqb a $"YES" then ret true
    else if str_eqb a $"N" || str_eqb a $"NO" then ret false
    else confirm k'
  end.

(** ClearBreakpoints(debugger, cmd), Debugger.cpp 478-509. *)
Definition cmd_clear (k : nat) (cmd : str) : M unit :=
  let! rest := lift (let? t := substr_from cmd 5 in Trim t) in
  match rest with
  | [] =>
    write_line $"Really delete all breakpoints? (y/n)" ;;
    let! y := confirm k in
    if y then set_dbg (set_bps []) else ret tt
  | _ =>
    let! no := lift (atoi (cstr rest)) in
    let! d := the_dbg in
    let! r := lift (clear_breakpoint no (d_bps d)) in
    match r with
    | Some b => set_dbg (set_bps b)
    | None => write_line $"Warning: no breakpoint cleared"
    end
  end.

(** ShowBreakpoints, Debugger.cpp 438-447. *)
Fixpoint show_bps (no : Z) (bps : list bpoint) : M unit :=
  match bps with
  | [] => ret tt
  | b :: bps' =>
    write_fmt $"#{0,-3} line={1,-5} module={2,-25} condition={3}"
      [z_to_string no; z_to_string (bp_line b); bp_module b; bp_cond b] ;;
    show_bps (no + 1) bps'
  end.
Definition cmd_list : M unit :=
  write_line $"Breakpoints:" ;; let! d := the_dbg in show_bps 1 (d_bps d).

(** ShowSourceCode, Debugger.cpp 464-476; [cur] is the current line. *)
Fixpoint show_code (lines : list str) (no : Z) (modname : str) (cur : Z) : M unit :=
  match lines with
  | [] => ret tt
  | l :: lines' =>
    let! d := the_dbg in
    write_fmt $"{0,3} {1,2} {2,3} {3}"
      [z_to_string no; if has_breakpoint no modname d then $"B " else $"  ";
       if (cur =? no)%Z then $"-->" else []; l] ;;
    show_code lines' (no + 1) modname cur
  end.
(** CurrentLineNo, Scope.h 123-128. *)
Definition current_line (sc : scope) : Z :=
  match s_token sc with Some t => to_size (tk_line t) | None => to_size (-1) end.
(** The code command, Debugger.cpp 160-181.  The module name of code run by evalstr starts with
    the tag; the text behind its first colon (searched behind the tag) is shown from a
    position that counts the length of the tag twice. *)
Definition cmd_code (script : str) (s : sid) : M unit :=
  let! sc := reads (get_scope s) in
  let m := s_module sc in
  let! t :=
    match m with
    | [] => ret script
    | _ =>
      if prefixb k_evalstrtag m then
        match find_from $":" m (length k_evalstrtag) with
        | Some p => lift (substr_from m (length k_evalstrtag + p))
        | None => lift (substr_from m (length k_evalstrtag - 1))
        end
      else reads (read_file m)
    end in
  let! d := the_dbg in
  let t1 := match t with [] => d_script d | _ => t end in
  let! lines := lift (Split t1 [c_nl]) in
  show_code lines 1 m (current_line sc).

(** ShowInteractiveCmds, Debugger.cpp 582-612. *)
Definition help_lines : list str :=
  [ []; $"help for interactive loop:"; [];
    $"  (h)elp                       : show this help";
    $"  version                      : show of this interpreter";
    $"  about                        : show informations about this interpreter";
    $"  (c)ode                       : show the program code";
    $"  stac(k)                      : show the current call stack";
    $"  (u)p                         : go one step up in call stack";
    $"  (d)own                       : go one step down in call stack";
    $"  (r)un                        : execute the program";
    $"  (s)tep                       : step into function";
    $"  o(v)er                       : step over function";
    $"  (o)ut                        : step out of function";
    $"  (b)reak [module:]line [cond] : set a breakpoint in line no with condition cond";
    $"  clear [no]                   : clears a breakpoint with number no or clears all";
    $"  lis(t)                       : shows all breakpoints";
    $"  restart                      : restart program";
    $"  (l)ocals                     : show all local variables of current scope";
    $"  (g)lobals                    : show all global variables";
    $"  modules                      : show all available modules";
    $"  builtins                     : show all builtin functions";
    $"  funcs                        : show all available functions";
    $"  macros                       : show all available macros";
    $"  doc [function]               : show documentation for all or only given function(s)";
    $"  searchdoc name               : show documentation for function(s) containing name";
    $"  exit                         : exit the interactive loop"; [] ].
Fixpoint write_lines (ls : list str) : M unit :=
  match ls with [] => ret tt | l :: ls' => write_line l ;; write_lines ls' end.

(** DumpMacros and DumpModules, Scope.h 245-248, 267-270, ProcessMetaScope, Scope.cpp 272-287. *)
Definition dump_meta (name : str) (g : sid) : M unit :=
  let! gs := reads (get_scope g) in
  match vars_find name (s_vars gs) with
  | None => ret tt
  | Some p =>
    let! o := lift (deref p) in
    match o with
    | OScope m => let! ms := reads (get_scope m) in write_lines (map fst (s_vars ms))
    | _ => ret tt
    end
  end.

(** ExtractModuleName, Scope.cpp 212-216; EvalStrTag is the tag of Environment.cpp 79. *)
Definition extract_module (m : str) : str :=
  if prefixb $"<evalstr>:" m then
    let r := skipn 10 m in match CppString.find $":" r with Some i => firstn i r | None => r end
  else m.

(** Dump, Scope.cpp 289-326, for the functions, or only the built-in ones, of a scope; [line] writes
    the line of one of them. *)
Fixpoint dump_fns (builtin : bool) (line : str -> variant -> fnval -> M unit) (vars : list (str * ptr)) : M unit :=
  match vars with
  | [] => ret tt
  | (k, p) :: vars' =>
    (if prefixb k_metatag k then ret tt
     else
       let! v := lift (vref p) in
       if is_ty TFun v then
         let! f := reads (function_value v) in
         if negb builtin || fn_bi f then line k v f else ret tt
       else ret tt) ;;
    dump_fns builtin line vars'
  end.
Definition fn_line (info : fnval -> str) (k : str) (v : variant) (f : fnval) : M unit :=
  let! d := reads (var_dbg v) in
  let! t := lift (type_string v) in
  write_fmt $"{0,20} --> {1,-40} : {2} {3}" [k; d; t; info f].
Definition help_line (k : str) (v : variant) (f : fnval) : M unit :=
  write_fmt $"{0,20} --> {1}" [k; fn_sig f] ;;
  match fn_doc f with [] => ret tt | d => write_fmt $"{0,20}     {1}" [$" "; d] end.

(** DumpFunctions, Scope.cpp 218-231. *)
Fixpoint dump_functions (k : nat) (g : sid) : M unit :=
  match k with
  | O => no_fuel
  | S k' =>
    let! gs := reads (get_scope g) in
    dump_fns false (fn_line (fun f => $" : module=" ++ extract_module (fn_mod f))) (s_vars gs) ;;
    match vars_find k_modules (s_vars gs) with
    | None => ret tt
    | Some p =>
      let! o := lift (deref p) in
      match o with
      | OScope m =>
        let! ms := reads (get_scope m) in
        fold_right (fun kv rest =>
          let! q := lift (deref (snd kv)) in
          (match q with OScope ms1 => dump_functions k' ms1 | _ => ret tt end) ;; rest) (ret tt) (s_vars ms)
      | _ => ret tt
      end
    end
  end.

(** DumpBuiltinFunctions and DumpBuiltinFunctionsHelp, Scope.h 249-257. *)
Definition dump_builtin_functions (g : sid) : M unit :=
  let! gs := reads (get_scope g) in dump_fns true (fn_line (fun _ => [])) (s_vars gs).
Definition dump_builtin_help (g : sid) : M unit :=
  let! gs := reads (get_scope g) in dump_fns true help_line (s_vars gs).

(** ShowVersion and ShowAbout, Utils.cpp 32-44, with the texts of Lisp.cpp 30-37. *)
Definition version_lines : list str :=
  [ []; $"FUEL(isp) v0.99.6 (for C++) from 16.12.2023, (C) by Michael Neuroth"; [] ].
Definition about_lines : list str :=
  version_lines ++ [ $"FUEL(isp) is a fast usable embeddable lisp interpreter"; [] ].

(** doc and searchdoc, Debugger.cpp 121-154. *)
Definition cmd_doc (R : recs) (what cmd : str) (g cur : sid) : M unit :=
  let! items := lift (Split cmd $" ") in
  match items with
  | _ :: i :: _ =>
    let! sc := reads (get_scope cur) in
    let! r := r_script R ($"(" ++ what ++ $" '" ++ i ++ $")") cur (s_module sc) in
    let! v := some_var r in
    let! t := reads (var_str v) in
    write_fmt $"{0}" [t]
  | _ => dump_builtin_help g
  end.

(** An expression typed at the prompt, Debugger.cpp 245-258; true if it was evaluated. *)
Definition cmd_eval (R : recs) (cmd : str) (cur : sid) : M bool :=
  let! sc := reads (get_scope cur) in
  try_catch (let! r := r_script R cmd cur (s_module sc) in
             let! v := some_var r in
             let! t := reads (var_str v) in
             write_fmt $"result={0}" [t] ;; ret true)
    (fun e => Some ((if is_lisp_exn e then write_line ($"Exception: " ++ exn_msg e)
                     else write_line $"Native Exception") ;; ret false)).

(** InteractiveLoop(debugger, initialTopScope, startedFromMain, ...), Debugger.cpp 59-260, from the
    first prompt on: [top] is topScope, [g] its GlobalScope, [cur] currentScope,
    [script] interactiveScript.  The result is bRestart.  tracing is false and outp and
    inp are null at all calls from DebuggerLoop and the evaluator. *)
Fixpoint dbg_loop (R : recs) (k : nat) (main : bool) (g top cur : sid) (script : str) : M bool :=
  match k with
  | O => no_fuel
  | S k' =>
    write_out dbg_prompt ;;
    let! l := read_line in
    let! cmd := lift (Trim l) in
    let again := dbg_loop R k' main g top cur script in
    match command_of cmd with
    | CExit => if main then ret false else throw EStopDebugger
    | CHelp => write_lines help_lines ;; again
    | CAbout => write_lines about_lines ;; again
    | CVersion => write_lines version_lines ;; again
    | CFuncs => dump_functions k' g ;; again
    | CBuiltins => dump_builtin_functions g ;; again
    | CMacros => dump_meta k_macros g ;; again
    | CModules => dump_meta k_modules g ;; again
    | CDoc => cmd_doc R $"doc" cmd g cur ;; again
    | CSearchDoc => cmd_doc R $"searchdoc" cmd g cur ;; again
    | CClear => cmd_clear k' cmd ;; again
    | CStack =>
      let! n := depth_of cur in
      let! d := reads (dump_stack (Some n) top) in
      write_line d ;; again
    | CCode => cmd_code script cur ;; again
    | CShow => cmd_list ;; again
    | CBreakpoint =>
      let! sc := reads (get_scope cur) in
      cmd_break cmd (s_module sc) ;; again
    | CUp =>
      let! sc := reads (get_scope cur) in
      dbg_loop R k' main g top (match s_next sc with Some n => n | None => cur end) script
    | CDown =>
      let! sc := reads (get_scope cur) in
      dbg_loop R k' main g top (match s_prev sc with Some n => n | None => cur end) script
    | CStep => set_dbg (set_mode StopAlways) ;; ret false
    | COver => let! n := depth_of cur in set_dbg (set_mode (StopOver n)) ;; ret false
    | COut => let! n := depth_of cur in set_dbg (set_mode (StopOut n)) ;; ret false
    | CRun => set_dbg (set_stop false) ;; ret false
    | CLocals => let! sc := reads (get_scope cur) in dump_vars (s_vars sc) ;; again
    | CGlobals => let! sc := reads (get_scope g) in dump_vars (s_vars sc) ;; again
    | CRestart => ret true
    | CEval =>
      let! ok := cmd_eval R cmd cur in
      dbg_loop R k' main g top cur (if ok then script ++ cmd ++ [c_nl] else script)
    end
  end.

(** The line announcing a stop, Debugger.cpp 266-271; [first] is the first element of currentAst.
    CurrentToken is dereferenced without a check. *)
Definition announce (first : ptr) (s : sid) : M unit :=
  let! sc := reads (get_scope s) in
  match s_token sc with
  | None => undef UBNullDeref
  | Some t =>
    let! h := reads (ptr_str first) in
    write_line ($"--> " ++ h ++ $" line=" ++ z_to_string (tk_line t) ++ $" start=" ++ z_to_string (tk_start t) ++
                $" stop=" ++ z_to_string (tk_stop t) ++ $" module=" ++ s_module sc ++ $" token=" ++ token_to_string t)
  end.

Definition stop_loop (R : recs) (k : nat) (s : sid) : M unit :=
  let! g := global_of s in
  let! r := dbg_loop R k false g s s [] in ret tt.

(** What happens at the three places where the evaluator calls the debugger: Interpreter.cpp
    202-209 with GetPosInfo 310-326, Environment.cpp 353-357, 1864-1870.
    InteractiveLoop of the interface, Debugger.cpp 262-274, drops bRestart. *)
Definition debugger (R : recs) (k : nat) (e : dbgev) : M unit :=
  match e with
  | EvVisit head s =>
    let! hv := lift (vref head) in
    let line := match v_tok hv with Some t => to_size (tk_line t) | None => to_size (-1) end in
    let! b := needs_break R line s in
    if b then announce head s ;; stop_loop R k s else ret tt
  | EvBreak s => stop_loop R k s
  | EvError m body s =>
    write_line ($"EXCEPTION: " ++ m) ;;
    let! o := lift (deref body) in
    match o with
    | OList l =>
      let! es := reads (get_vec l) in
      match es with
      | h :: _ => announce h s ;; stop_loop R k s
      | [] => undef UBIndex
      end
    | _ => undef UBTag
    end
  end.

(** The evaluator with the debugger attached to the global scope: Interpreter.cpp 105-132 and Debugger.cpp 262-284. *)
Definition dstep (R : recs) (k : nat) : recs := step_with R (debugger R k).
Fixpoint drun (n : nat) : recs :=
  match n with
  | O => Recs (fun _ _ => no_fuel) (fun _ _ _ => no_fuel) (fun _ _ => no_fuel) (fun _ _ => no_fuel)
              (fun _ _ _ _ => no_fuel) (fun _ _ => no_fuel) (fun _ _ _ _ => no_fuel)
              (fun _ _ _ => no_fuel) (fun _ => no_fuel)
  | S n' => dstep (drun n') n'
  end.

(** ** DebuggerLoop, Debugger.cpp 286-341 *)

(** CreateDefaultScope for another round, Debugger.cpp 298: nothing of the previous round is reachable from
    the new global scope. *)
Definition fresh_round : M unit := fun st =>
  (Val tt, with_dbg (st_dbg st) (with_out (st_out st) (init_state (st_in st) (st_files st) (st_env st)))).

(** Reset, Debugger.cpp 343-347. *)
Definition dbg_reset (d : dbg) : dbg := Dbg (d_bps d) true StopAlways (d_script d).

(** Debugger.cpp 286-341: [had] says whether result is not null; the value itself is not kept.
    Evaluating a script gives a result unless it throws. *)
Fixpoint debugger_loop (n k : nat) (tracing : bool) (script modname : str) (had : bool) : M bool :=
  match k with
  | O => no_fuel
  | S k' =>
    (if str_eqb modname $"command-line" then set_dbg (set_script script) else ret tt) ;;
    fresh_round ;;
    let! r :=
      try_catch (let! v := lisp_eval (drun n) tracing false script main_sid modname in
                 set_dbg dbg_reset ;; ret (match v with Some _ => true | None => false end, true))
        (fun e => Some
          match e with
          | EStopDebugger => ret (had, false)
          | ELisp m _ | ELispBase m =>
            write_fmt ([c_nl] ++ $"Exception: {0}") [$"EXCEPTION: " ++ m] ;;
            write_fmt ([c_nl] ++ $"Stack:" ++ [c_nl] ++ $"{0}") [$"<TODO>"] ;;
            let! b := dbg_loop (drun n) k' true main_sid main_sid main_sid [] in
            ret (had, b)
          | _ => write_line ([c_nl] ++ $"Native Exception...") ;; ret (had, true)
          end) in
    let '(had1, again) := r in
    if again then
      write_line $"restart program" ;;
      let! b := if had1 then ret true else dbg_loop (drun n) k' true main_sid main_sid main_sid [] in
      if b then debugger_loop n k' tracing script modname had1 else ret had1
    else ret had1
  end.
