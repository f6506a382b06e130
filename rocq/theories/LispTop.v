(** A fresh interpreter, Lisp::Eval and Lisp::SaveEval: Environment.cpp 2298-2500, Lisp.cpp
    114-185. *)
Require Import String Ascii List ZArith Bool Lia.
Require Import PArith FMapPositive.
From Verif Require Import Base CppString Num Token Tokenizer Parser Value State Show ScopeOps Builtins Table Eval.
Import ListNotations.

(** The scopes of CreateDefaultScope, Environment.cpp 2298-2305. *)
Definition main_sid : sid := 1%positive.
Definition modules_sid : sid := 2%positive.
Definition macros_sid : sid := 3%positive.

(** CreateFunction, Environment.cpp 232-243, with moduleName = Builtin (Environment.cpp 56). *)
Definition create_function (b : builtin) (sig doc : str) (bi sp ex : bool) : variant :=
  mkv TFun (OFun (MkFn (CBuiltin b) sig doc bi sp ex $"<builtin>")).

(** The table of Environment.cpp 2307-2493 as variables; [id] tags the next new object. *)
Fixpoint table_vars (es : list entry) (id : positive) (vs : list (str * ptr)) : list (str * ptr) * positive :=
  match es with
  | [] => (vs, id)
  | (name, b, sig, doc, bi, sp, ex) :: es' =>
    table_vars es' (Pos.succ id) (vars_set name (P id (OVar (create_function b sig doc bi sp ex))) vs)
  end.

Definition meta_vars : list (str * ptr) :=
  vars_set k_traceon (P 4 (OBool false))
   (vars_set k_tracebuffer (P 3 (OString []))
     (vars_set k_macros (P 2 (OScope macros_sid))
       (vars_set k_modules (P 1 (OScope modules_sid)) []))).

Definition main_vars : list (str * ptr) * positive := table_vars builtin_table 5 meta_vars.

(** MainScope = "<main>", Environment.cpp 58.  PrivateInitForCpp (Scope.h) makes the scope
    its own GlobalScope. *)
Definition main_scope : scope :=
  Scope (fst main_vars) $"<main>" [] main_sid None None None false false false false None None None [].
Definition meta_scope (name : str) : scope :=
  Scope [] name [] main_sid None None None false false false false None None None [].

(** The state after CreateDefaultScope, Environment.cpp 2298-2500: input lines, files and the environment are
    those of the embedding program, nothing has been written. *)
Definition init_state (inp : list str) (files : list (str * str)) (e : env) : state :=
  State (PositiveMap.empty _) (PositiveMap.empty _)
        (PositiveMap.add main_sid main_scope
          (PositiveMap.add modules_sid (meta_scope k_modules)
            (PositiveMap.add macros_sid (meta_scope k_macros) (PositiveMap.empty _))))
        (snd main_vars) 1 4 [] inp files e (Dbg [] true StopAlways []).

(** Lisp::Eval(code, null, moduleName, tracing, outp, inp, onlyMacroExpand), Lisp.cpp 114-143. *)
Definition eval_script (n : nat) (tracing onlyexpand : bool) (code modname : str) : M result :=
  lisp_eval (run n) tracing onlyexpand code main_sid modname.

(** LispVariant::CreateErrorValue, Variant.cpp 101-105. *)
Definition error_value (msg : str) : variant := mkv TError (OString msg).

(** Lisp::SaveEval, Lisp.cpp 143-185, with a writer given; the text sent to std::cout is
    left out. *)
Definition report (msg : str) (i : errinfo) (verbose : bool) : M unit :=
  let! m1 := lift (Format ([c_nl] ++ $"Error executing script." ++ [c_nl; c_nl] ++
                           $"{0} --> line={1} start={2} stop={3} module={4}")
                     [msg; z_to_string (ei_line i); z_to_string (ei_start i); z_to_string (ei_stop i); ei_module i]) in
  write_line m1 ;;
  let! m2 := lift (Format ([c_nl] ++ $"Callstack:" ++ [c_nl] ++ $"{0}") [ei_stack i]) in
  write_line m2 ;;
  if verbose then
    let! m3 := lift (Format ($"Exception in eval(): {0} " ++ [c_nl] ++ $"data={1}") [$"exc->ToString()"; $"exc.Data"]) in
    write_line m3
  else ret tt.
Definition save_eval (n : nat) (verbose tracing onlyexpand : bool) (code modname : str) : M result :=
  try_catch (eval_script n tracing onlyexpand code modname) (fun e =>
    match e with
    | ELisp m i => Some (report m i verbose ;; some (error_value m))
    | ELispBase m => Some (some (error_value m))
    | _ => None
    end).

(** TextReader(txt), cstypes.cpp 109-120: the lines ReadLine hands out.  With an empty text
    the reader reads std::cin instead, which is not modelled (EnableFromString is
    not called by the interpreter).  The lines are the [inp] of [init_state]. *)
Definition reader_lines (txt : str) : out (list str) :=
  match txt with
  | [] => Unmod $"reading from std::cin"
  | _ => Split txt [c_nl]
  end.
