(** The evaluator: Interpreter.cpp, the special forms and the functions of
    Environment.cpp that call back into the evaluator, and Lisp::Eval. *)
Require Import String Ascii List ZArith Bool Lia.
Require Import PArith FMapPositive.
From Verif Require Import Base CppString Num Token Tokenizer Parser Value State Show ScopeOps Builtins.
Import ListNotations.

(** The recursive functions of Interpreter.cpp 74-307 and Environment.cpp 526-601, 1472-1983, tied together with fuel in [run] below.
    - [r_eval]    LispInterpreter::EvalAst
    - [r_call]    LispFunctionWrapper::Function(args, scope)
    - [r_expand]  ExpandMacros(ast, scope), the loop; PNull: nothing left
    - [r_expand1] ExpandMacros(ast, scope, ref anyMacroReplaced); the bool is true
                  if this node was replaced
    - [r_replace] ReplaceSymbolWithValueInExpression
    - [r_quasi]   ProcessQuotedSExpression; the bool is splicing
    - [r_while]   the loop of while_form from the test of the condition on
    - [r_script]  Lisp::Eval(code, scope, moduleName)
    - [r_dbg]     what the debugger does when it is called; see [dbgev] *)
Inductive dbgev :=
| EvVisit (head : ptr) (s : sid)      (* before every call, Interpreter.cpp 202-209 *)
| EvBreak (s : sid)                   (* (break), Environment.cpp 353-361 *)
| EvError (msg : str) (body : ptr) (s : sid).   (* an error leaves a function, 1864-1870 *)
Record recs := Recs {
  r_eval : ptr -> sid -> M result;
  r_call : fnval -> list ptr -> sid -> M result;
  r_expand : ptr -> sid -> M ptr;
  r_expand1 : ptr -> sid -> M (ptr * bool);
  r_replace : variant -> ptr -> list ptr -> bool -> M (list ptr);
  r_quasi : list ptr -> sid -> M (ptr * bool);
  r_while : ptr -> ptr -> sid -> result -> M result;
  r_script : str -> sid -> str -> M result;
  r_dbg : dbgev -> M unit }.

(** scope->GlobalScope, Scope.h 158. *)
Definition global_of (s : sid) : M sid := let! sc := reads (get_scope s) in ret (s_global sc).

(** ** Interpreter.cpp *)

(** One element of ResolveArgsInScopes outside a special form, Interpreter.cpp 40-47. *)
Definition resolve_elem (p : ptr) (s : sid) : M ptr :=
  let! o := lift (deref p) in
  if obj_is_sym o then resolve s p else ret p.
Fixpoint resolve_elems (ps : list ptr) (s : sid) : M (list ptr) :=
  match ps with
  | [] => ret []
  | p :: ps' =>
    let! q := resolve_elem p s in
    let! qs := resolve_elems ps' s in ret (q :: qs)
  end.

(** The function of the first element, Interpreter.cpp 50-66 with compile = false. *)
Definition head_function (q : ptr) (s : sid) : M fnval :=
  let! v := lift (vref q) in
  try_catch (reads (function_value v)) (fun e =>
    if is_lisp_exn e then
      Some (let! t := reads (ptr_str q) in
            throw_scope ($"Function " ++ [c_dquote] ++ t ++ [c_dquote] ++ $" not found") s)
    else None).

(** The loop of EvalAst over the arguments, Interpreter.cpp 172-200.  A spliced list ends the
    loop; the positions meant for the remaining arguments stay null. *)
Fixpoint eval_args (R : recs) (special : bool) (ps : list ptr) (s : sid) : M (list ptr) :=
  match ps with
  | [] => ret []
  | p :: ps' =>
    let! o := lift (deref p) in
    let! q := if obj_is_list o && negb special then
                let! r := r_eval R p s in let! v := some_var r in new_var_ptr v
              else ret p in
    let! qo := lift (deref q) in
    let spliced := match qo with
                   | OVar v => match v_unq v with UnqSplice => is_list v | _ => false end
                   | _ => false
                   end in
    if spliced then
      let! es := reads (list_value (vref_obj qo)) in
      ret (es ++ repeat PNull (length ps'))
    else
      let! qs := eval_args R special ps' s in ret (q :: qs)
  end.

(** ReplaceFormalArgumentsInExpression, Interpreter.cpp 365-393; [ast] is the macro call.  (The flag
    only records that something was replaced; no caller uses it otherwise.) *)
Fixpoint replace_formals (R : recs) (formals : list ptr) (actuals : list ptr) (body : list ptr) (s : sid)
  : M (list ptr) :=
  match formals with
  | [] => ret body
  | f :: formals' =>
    match actuals with
    | [] => undef UBIndex
    | a :: actuals' =>
      let! o := lift (deref a) in
      let! value := if obj_is_list o then let! r := r_expand1 R a s in ret (fst r)
                    else new_var_ptr (var_of_obj o) in
      let! fv := lift (vref f) in
      let! body' := r_replace R fv value body false in
      replace_formals R formals' actuals' body' s
    end
  end.
Definition replace_formal_arguments (R : recs) (formals ast body : list ptr) (s : sid) : M (list ptr) :=
  let! ro := new_list_obj (tl ast) in
  let! rp := new_var_ptr (mkv TList ro) in
  let! qp := new_var_ptr (mkv TSym (OString n_quote)) in
  let! quoted := new_list_ptr [qp; rp] in
  let! body1 := r_replace R (mkv TSym (OString $"quoted-macro-args")) quoted body true in
  replace_formals R formals (tl ast) body1 s.

(** ReplaceSymbolWithValueInExpression, Interpreter.cpp 328-363. *)
Fixpoint replace_symbol (R : recs) (sym : variant) (value : ptr) (expr : list ptr) (margs : bool) : M (list ptr) :=
  match expr with
  | [] => ret []
  | e :: expr' =>
    let! hit := reads (symbol_compare sym e) in
    let! part :=
      if hit then
        let! vo := lift (deref value) in
        match vo with
        | OList l => if margs then reads (get_vec l) else ret [value]
        | _ => ret [value]
        end
      else
        let! o := lift (deref e) in
        match o with
        | OList l =>
          let! es := reads (get_vec l) in
          let! t := r_replace R sym value es margs in
          let! p := new_list_ptr t in ret [p]
        | _ => ret [e]
        end in
    let! rest := replace_symbol R sym value expr' margs in
    ret (part ++ rest)
  end.

(** EvalAst from Interpreter.cpp 105 on, for a non-empty list. *)
Definition eval_list (R : recs) (head : ptr) (tail : list ptr) (s : sid) : M result :=
  let! g := global_of s in
  let! mac := reads (get_macro head g) in
  match mac with
  | Some PNull => undef UBNullDeref
  | Some (P _ (OMacro true formals body)) =>
    let! ex := replace_formal_arguments R formals (head :: tail) body s in
    let! p := new_list_ptr ex in
    r_eval R p s
  | Some (P _ _) => throw (ELispBase $"Unexpected macro modus!")
  | None =>
    let! hv := lift (vref head) in
    match v_tok hv with
    | Some t => mod_scope s (set_token (Some t))
    | None => ret tt
    end ;;
    let! fp := resolve_elem head s in
    let! f := head_function fp s in
    let! args0 := if fn_sp f then ret tail else resolve_elems tail s in
    let! gs := reads (get_scope g) in
    (if s_tracing gs then let! t := reads (ptr_str head) in write_fmt $"--> {0}" [t] else ret tt) ;;
    let! args := eval_args R (fn_sp f) args0 s in
    r_dbg R (EvVisit head s) ;;
    r_call R f args s
  end.

(** LispInterpreter::EvalAst, Interpreter.cpp 74-213. *)
Definition eval_ast (R : recs) (p : ptr) (s : sid) : M result :=
  let on_list es := match es with [] => some vnil | h :: t => eval_list R h t s end in
  match p with
  | PNull => ret None
  | P _ (OVar v) =>
    if is_ty TSym v then
      let! q := new_var_ptr v in
      let! r := resolve s q in
      let! w := lift (var_of_ptr r) in some w
    else if is_list v && negb (is_nil v) then
      let! es := reads (list_value v) in on_list es
    else some v
  | P _ _ => let! es := reads (list_ref p) in on_list es
  end.

(** ExpandMacros(ast, scope), Interpreter.cpp 217-227. *)
Definition expand_loop (R : recs) (p : ptr) (s : sid) : M ptr :=
  let! r := r_expand1 R p s in
  if snd r then r_expand R (fst r) s else ret (fst r).

(** ConvertLispVariantListToListIfNeeded, Interpreter.cpp 229-242. *)
Definition convert_list (p : ptr) : M ptr :=
  let! o := lift (deref p) in
  match o with
  | OVar v => if is_list v then let! es := reads (list_value v) in new_list_ptr es else ret p
  | _ => ret p
  end.

(** Interpreter.cpp 293-304. *)
Fixpoint expand_elems (R : recs) (ps : list ptr) (s : sid) : M (list ptr) :=
  match ps with
  | [] => ret []
  | p :: ps' =>
    let! q := r_expand R p s in
    match q with
    | PNull => expand_elems R ps' s
    | _ =>
      let! c := convert_list q in
      let! qs := expand_elems R ps' s in ret (c :: qs)
    end
  end.

(** ExpandMacros(ast, scope, ref anyMacroReplaced), Interpreter.cpp 244-307. *)
Definition expand_once (R : recs) (p : ptr) (s : sid) : M (ptr * bool) :=
  match p with
  | PNull => ret (p, false)
  | P _ (OVar _) => ret (p, false)
  | P _ (OList l) =>
    let! es := reads (get_vec l) in
    match es with
    | [] => ret (p, false)
    | head :: rest =>
      let! name := reads (ptr_str head) in
      let! own := reads (scope_find s name) in
      let! ex := match own with
                 | None => ret None
                 | Some q =>
                   let! v := lift (vref q) in
                   let! f := reads (function_value v) in
                   ret (if fn_ex f then Some f else None)
                 end in
      match ex with
      | Some f => let! _ := r_call R f rest s in ret (PNull, false)
      | None =>
        let! mac := reads (get_macro head s) in
        match mac with
        | Some PNull => undef UBNullDeref
        | Some (P _ (OMacro false formals body)) =>
          let! e := replace_formal_arguments R formals es body s in
          let! ep := new_list_ptr e in
          let! r := r_eval R ep s in
          let! v := some_var r in
          match v_val v with
          | None => undef UBNullDeref
          | Some o => let! o' := obj_copy o in let! q := new_ptr o' in ret (q, true)
          end
        | _ =>
          let! qs := expand_elems R es s in
          let! q := new_list_ptr qs in ret (q, false)
        end
      end
    end
  | P _ _ => undef UBBadCast
  end.

(** ** Environment.cpp: functions that evaluate *)

(** EvalArgIfNeeded, Environment.cpp 245-248. *)
Definition eval_arg_if_needed (R : recs) (p : ptr) (s : sid) : M result :=
  let! o := lift (deref p) in
  if obj_is_list o then r_eval R p s else ret (Some (vref_obj o)).

(** def_form_helper, Environment.cpp 250-263; [target] is scopeToSet. *)
Definition def_helper (R : recs) (name : str) (target : sid) (args : list ptr) (s : sid) : M result :=
  check_args name (Some 2%nat) args s ;;
  let! a0 := arg 0 args in
  let! r := eval_arg_if_needed R a0 s in
  let! symbol := some_var r in
  if is_ty TSym symbol || is_ty TString symbol then
    let! a1 := arg 1 args in
    let! rv := r_eval R a1 s in
    let! value := some_var rv in
    let! p := new_var_ptr value in
    let! n := reads (var_str symbol) in
    scope_set target n p ;;
    some value
  else throw_scope $"Symbol expected" s.
Definition b_def (R : recs) (args : list ptr) (s : sid) : M result := def_helper R $"def" s args s.
Definition b_gdef (R : recs) (args : list ptr) (s : sid) : M result :=
  let! g := global_of s in def_helper R $"gdef" g args s.

(** Import, Environment.cpp 526-601. *)
Definition add_ext (name : str) : str := if EndsWith name $".fuel" then name else name ++ $".fuel".
Definition import_candidates (e : env) (org : str) : list str :=
  [org; add_ext (e_libpath e ++ $"/" ++ org); add_ext ($"./Library/" ++ org); add_ext ($"./lib/fuel/" ++ org)] ++
  match e_fuelpath e with Some p => [add_ext (p ++ $"/" ++ org)] | None => [] end.
(** Import, Environment.cpp 526-601: the first candidate that exists, otherwise the last one. *)
Fixpoint pick_file (cs : list str) (dflt : str) (st : state) : out (str * bool) :=
  match cs with
  | [] => Val (dflt, false)
  | c :: cs' =>
    let? b := file_exists c st in
    if b then Val (c, true) else pick_file cs' c st
  end.
Definition import_one (R : recs) (p : ptr) (s : sid) (res : result) : M result :=
  let! v := lift (vref p) in
  let! t := reads (string_value v) in
  let org := Replace t [ascii_of_nat 92] $"/" in
  let! e := reads (fun st => Val (st_env st)) in
  let! f := reads (pick_file (import_candidates e org) []) in
  let '(name, found) := f in
  let! code := if found then reads (read_file name)
               else write_fmt $"WARNING: Library {0} not found! Tried path {1}" [org; name] ;; ret [] in
  match code with
  | [] => ret res
  | _ =>
    let! g := global_of s in
    let! i := new_scope ($"import " ++ name) g name in
    push_next s i ;;
    let! r := r_script R code i name in
    let! mp := scope_index g k_modules in
    let! ms := lift (scope_ref mp) in
    let! o := obj_copy (OScope i) in
    let! np := new_ptr o in
    scope_set ms name np ;;
    pop_next s ;;
    ret r
  end.
Fixpoint import_loop (R : recs) (ps : list ptr) (s : sid) (res : result) : M result :=
  match ps with
  | [] => ret res
  | p :: ps' => let! r := import_one R p s res in import_loop R ps' s r
  end.
Definition b_import (R : recs) (args : list ptr) (s : sid) : M result := import_loop R args s (Some vundef).

(** A copy of an element as a new object, Environment.cpp 1003-1041: std::make_shared<object>(elem dereferenced). *)
Definition copy_ptr (p : ptr) : M ptr :=
  let! o := lift (deref p) in let! o' := obj_copy o in new_ptr o'.

(** Map, Reduce: Environment.cpp 1003-1041. *)
Fixpoint map_loop (R : recs) (f : fnval) (es : list ptr) (s : sid) : M (list ptr) :=
  match es with
  | [] => ret []
  | e :: es' =>
    let! a := copy_ptr e in
    let! r := r_call R f [a] s in
    let! v := some_var r in
    let! p := new_var_ptr v in
    let! ps := map_loop R f es' s in ret (p :: ps)
  end.
Definition b_map (R : recs) (args : list ptr) (s : sid) : M result :=
  check_args $"map" (Some 2%nat) args s ;;
  let! a0 := arg 0 args in let! f := check_for_function $"map" a0 s in
  let! a1 := arg 1 args in let! es := check_for_list $"map" a1 s in
  let! ps := map_loop R f es s in list_result ps.
Fixpoint reduce_loop (R : recs) (f : fnval) (es : list ptr) (acc : variant) (s : sid) : M variant :=
  match es with
  | [] => ret acc
  | e :: es' =>
    let! a := copy_ptr e in
    let! b := new_var_ptr acc in
    let! r := r_call R f [a; b] s in
    let! v := some_var r in
    reduce_loop R f es' v s
  end.
Definition b_reduce (R : recs) (args : list ptr) (s : sid) : M result :=
  check_args $"reduce" (Some 3%nat) args s ;;
  let! a0 := arg 0 args in let! f := check_for_function $"reduce" a0 s in
  let! a1 := arg 1 args in let! es := check_for_list $"reduce" a1 s in
  let! start := argv 2 args in
  let! v := reduce_loop R f es start s in some v.

(** RValue, Environment.cpp 1271-1280. *)
Definition b_rval (R : recs) (args : list ptr) (s : sid) : M result :=
  check_args $"rval" (Some 1%nat) args s ;;
  let! sc := reads (get_scope s) in
  mod_scope s (set_needlv false) ;;
  let! a0 := arg 0 args in
  let! r := eval_arg_if_needed R a0 s in
  mod_scope s (set_needlv (s_needlv sc)) ;;
  ret r.

(** ApplyFcn, EvalFcn, EvalStrFcn: Environment.cpp 1334-1382. *)
Definition b_apply (R : recs) (args : list ptr) (s : sid) : M result :=
  check_args $"apply" (Some 2%nat) args s ;;
  let! a0 := arg 0 args in
  let! fr := r_eval R a0 s in
  let! v := argv 1 args in
  if is_list v then
    let! es := reads (list_value v) in
    let! fv := some_var fr in
    let! f := reads (function_value fv) in
    r_call R f es s
  else throw_scope $"Expected list as arguments in apply" s.
Definition b_eval (R : recs) (args : list ptr) (s : sid) : M result :=
  check_args $"eval" (Some 1%nat) args s ;;
  let! v := argv 0 args in
  if is_list v then
    let! es := reads (list_value v) in
    let! p := new_list_ptr es in r_eval R p s
  else let! p := new_var_ptr v in r_eval R p s.
Definition b_evalstr (R : recs) (args : list ptr) (s : sid) : M result :=
  check_args $"evalstr" (Some 1%nat) args s ;;
  let! v := argv 0 args in
  let! sc := reads (get_scope s) in
  mod_scope s (set_ineval true) ;;
  match v_val v with
  | None => undef UBNullDeref
  | Some o =>
    let! t := reads (obj_str o) in
    let! r := r_script R t s (k_evalstrtag ++ s_module sc ++ $":" ++ t) in
    mod_scope s (set_ineval false) ;;
    mod_scope s (set_module (s_module sc)) ;;
    ret r
  end.

(** bool_operation_form with and_form, or_form: Environment.cpp 1472-1507.  Both loops stop when the
    result so far is false. *)
Fixpoint bool_loop (R : recs) (op : bool -> bool -> bool) (args : list ptr) (s : sid) (acc : bool) : M bool :=
  match args with
  | [] => ret acc
  | p :: args' =>
    let! r := r_eval R p s in
    let! v := some_var r in
    let! b := reads (bool_value v) in
    let acc' := op acc b in
    if acc' then bool_loop R op args' s acc' else ret acc'
  end.
Definition b_and (R : recs) (args : list ptr) (s : sid) : M result :=
  let! b := bool_loop R andb args s true in some (vbool b).
Definition b_or (R : recs) (args : list ptr) (s : sid) : M result :=
  let! b := bool_loop R orb args s false in some (vbool b).

(** The setter actions built by First, Last, Nth: Environment.cpp 1103-1109, 1133-1139, 1177-1183. *)
Definition replace_at (i : nat) (x : ptr) (es : list ptr) : list ptr := firstn i es ++ x :: skipn (S i) es.
Definition run_setter (lv : lval) (np : ptr) : M unit :=
  let '(lp, pos) := match lv with
                    | LvFirst p => (p, fun _ => 0%Z)
                    | LvLast p => (p, fun n => Z.of_nat n - 1)%Z
                    | LvNth p i => (p, fun _ => i)
                    end in
  let! v := lift (vref lp) in
  let! l := reads (list_loc v) in
  match l with
  | None => undef UBIndex
  | Some l =>
    let! es := reads (get_vec l) in
    let i := pos (length es) in
    if (i <? 0)%Z || (Z.of_nat (length es) <=? i)%Z then undef UBIndex
    else put_vec l (replace_at (Z.to_nat i) np es)
  end.

(** setf_form, Environment.cpp 1519-1539. *)
Definition b_setf (R : recs) (args : list ptr) (s : sid) : M result :=
  check_args $"setf" (Some 2%nat) args s ;;
  let! sc := reads (get_scope s) in
  mod_scope s (set_needlv true) ;;
  let! a0 := arg 0 args in
  let! sr := eval_arg_if_needed R a0 s in
  mod_scope s (set_needlv (s_needlv sc)) ;;
  let! name := match sr with Some v => reads (var_str v) | None => ret [] end in
  let! a1 := arg 1 args in
  let! vr := r_eval R a1 s in
  let! symbol := some_var sr in
  let! value := some_var vr in
  let! np := new_var_ptr value in
  (if is_ty TLValue symbol then
     match v_val symbol with
     | Some (OLValue lv) => run_setter lv np
     | Some _ => undef UBTag
     | None => undef UBTag
     end
   else set_in_scopes s name np) ;;
  some value.

(** The scope of the macros: scope_ref of the entry, or nothing if there is none
    (Environment.cpp 1545-1549). *)
Definition b_defmacroeval (R : recs) (args : list ptr) (s : sid) : M result :=
  check_args $"define-macro-eval" (Some 3%nat) args s ;;
  let! g := global_of s in
  let! mp := reads (scope_find g k_macros) in
  match mp with
  | None => ret None
  | Some PNull => undef UBNullDeref
  | Some (P _ (OScope ms)) =>
    let! n := args_str 0 args in
    let! a1 := arg 1 args in let! formals := reads (enumerable a1) in
    let! a2 := arg 2 args in let! body := reads (enumerable a2) in
    let! p := new_ptr (OMacro true formals body) in
    scope_set ms n p ;; ret None
  | Some (P _ _) => ret None
  end.

(** definemacroexpand_form, Environment.cpp 1561-1574. *)
Definition b_defmacroexpand (R : recs) (args : list ptr) (s : sid) : M result :=
  check_args $"define-macro-expand" (Some 3%nat) args s ;;
  let! g := global_of s in
  let! mp := scope_index g k_macros in
  match mp with
  | PNull => undef UBNullDeref
  | P _ (OScope ms) =>
    let! a2 := arg 2 args in
    let! e := reads (get_expression a2) in
    let! ep := new_list_ptr e in
    let! r := r_expand R ep s in
    let! n := args_str 0 args in
    let! a1 := arg 1 args in let! formals := reads (get_expression a1) in
    let! body := reads (enumerable r) in
    let! p := new_ptr (OMacro false formals body) in
    scope_set ms n p ;; ret None
  | P _ _ => ret None
  end.

(** quote_form, unquote_form, unquotesplicing_form: Environment.cpp 1578-1583, 1633-1645. *)
Definition b_quote (args : list ptr) (s : sid) : M result :=
  check_args $"quote" (Some 1%nat) args s ;;
  let! p := arg 0 args in let! o := lift (deref p) in
  let! o' := obj_copy o in some (var_of_obj o').
Definition b_unquote (args : list ptr) (s : sid) : M result :=
  check_args $"_unquote" (Some 1%nat) args s ;; let! v := argc 0 args in some v.
Definition b_unquotesplicing (args : list ptr) (s : sid) : M result :=
  check_args $"_unquotesplicing" (Some 1%nat) args s ;; let! v := argc 0 args in some v.

(** ProcessQuotedSExpression, Environment.cpp 1647-1696. *)
Fixpoint quasi_items (R : recs) (items : list ptr) (s : sid) : M (list ptr) :=
  match items with
  | [] => ret []
  | it :: items' =>
    let! o := lift (deref it) in
    let! part :=
      match o with
      | OList l =>
        let! es := reads (get_vec l) in
        let! r := r_quasi R es s in
        let '(res, splicing) := r in
        if splicing then let! v := lift (vref res) in reads (list_value v)
        else ret [res]
      | _ => ret [it]
      end in
    let! rest := quasi_items R items' s in ret (part ++ rest)
  end.
Definition with_unq (u : unqm) (v : variant) : variant := MkVar (v_ty v) (v_val v) u (v_tok v).
Definition quasi (R : recs) (es : list ptr) (s : sid) : M (ptr * bool) :=
  match es with
  | [i1; i2] =>
    let! o := lift (deref i1) in
    let! name := match o with
                 | OVar v => if is_ty TSym v then let! t := reads (var_str v) in ret (Some t) else ret None
                 | _ => ret None
                 end in
    match name with
    | Some t =>
      if str_eqb t n_unquote || str_eqb t n_unquotesplicing then
        let! r := r_eval R i2 s in
        let! v := some_var r in
        let sp := str_eqb t n_unquotesplicing in
        let! p := new_var_ptr (with_unq (if sp then UnqSplice else UnqUnquote) v) in
        ret (p, sp)
      else let! p := new_list_ptr [i1; i2] in ret (p, false)
    | None => let! p := new_list_ptr [i1; i2] in ret (p, false)
    end
  | _ =>
    let! ps := quasi_items R es s in
    let! p := new_list_ptr ps in ret (p, false)
  end.
(** quasiquote_form, Environment.cpp 1698-1714. *)
Definition b_quasiquote (R : recs) (args : list ptr) (s : sid) : M result :=
  check_args $"quasiquote" (Some 1%nat) args s ;;
  let! p := arg 0 args in let! o := lift (deref p) in
  match o with
  | OVar v => some v
  | OList l =>
    let! es := reads (get_vec l) in
    let! r := r_quasi R es s in
    let! v := lift (var_of_ptr (fst r)) in some v
  | _ => some (var_of_obj o)
  end.

(** if_form, Environment.cpp 1716-1727. *)
Definition b_if (R : recs) (args : list ptr) (s : sid) : M result :=
  (if (length args =? 2)%nat || (length args =? 3)%nat then ret tt else check_args $"if" None args s) ;;
  let! c := arg 0 args in
  let! r := r_eval R c s in
  let! v := some_var r in
  let! b := reads (bool_value v) in
  let! t := arg 1 args in
  r_eval R (if b then t else match nth_error args 2 with Some e => e | None => PNull end) s.

(** while_form, Environment.cpp 1729-1745. *)
Definition b_while (R : recs) (args : list ptr) (s : sid) : M result :=
  check_args $"while" (Some 2%nat) args s ;;
  let! c := arg 0 args in let! b := arg 1 args in
  r_while R c b s (Some vundef).
Definition while_loop (R : recs) (c b : ptr) (s : sid) (res : result) : M result :=
  let! cr := r_eval R c s in
  let! cv := some_var cr in
  let! go := reads (to_bool cv) in
  if go then
    let! r := r_eval R b s in
    let! sc := reads (get_scope s) in
    if s_inret sc then ret r else r_while R c b s r
  else ret res.

(** do_form, Environment.cpp 1747-1769. *)
Fixpoint do_loop (R : recs) (args : list ptr) (s : sid) (res : result) : M result :=
  match args with
  | [] => ret res
  | p :: args' =>
    let! o := lift (deref p) in
    if obj_is_list o then
      let! r := r_eval R p s in
      let! sc := reads (get_scope s) in
      if s_inret sc then ret r else do_loop R args' s r
    else throw_token $"List expected in do" (v_tok (vref_obj o)) s
  end.
Definition b_do (R : recs) (args : list ptr) (s : sid) : M result := do_loop R args s (Some vundef).

(** fn_form, Environment.cpp 1781-1787 and 1878; the call is [call_closure]. *)
Definition b_fn (args : list ptr) (s : sid) : M result :=
  let! sc := reads (get_scope s) in
  let name := match s_userdata sc with Some n => n | None => [] end in
  let '(sig, doc) := match s_userdoc sc with Some d => d | None => ([], []) end in
  some (mkv TFun (OFun (MkFn (CClosure name (s_module sc) args s) sig doc false false false (s_module sc)))).

(** Environment.cpp 1807-1820: missing arguments are filled with nil. *)
Fixpoint nil_ptrs (n : nat) : M (list ptr) :=
  match n with
  | O => ret []
  | S n' => let! p := new_var_ptr vnil in let! ps := nil_ptrs n' in ret (p :: ps)
  end.
(** Environment.cpp 1823-1827. *)
Fixpoint bind_formals (formals : list ptr) (actuals : list ptr) (c : sid) : M unit :=
  match formals with
  | [] => ret tt
  | f :: formals' =>
    match actuals with
    | [] => undef UBIndex                       (* not reached: there are enough *)
    | a :: actuals' =>
      let! n := reads (ptr_str f) in
      scope_set c n a ;; bind_formals formals' actuals' c
    end
  end.

(** The lambda of fn_form, Environment.cpp 1790-1876: [ls] is localScope, [ds]
    the defining scope.  The handler catches LispExceptionBase by reference
    and throws a copy of static type LispExceptionBase: a LispException loses
    its position data.  PopNextScope is skipped then. *)
Definition call_closure (R : recs) (name modname : str) (fargs : list ptr) (ds : sid)
           (args : list ptr) (ls : sid) : M result :=
  let! g := global_of ls in
  let! c := new_scope name g modname in
  push_next ls c ;;
  let! a0 := arg 0 fargs in
  let! o := lift (deref a0) in
  let! formals := match o with
                  | OVar v => reads (list_value v)
                  | _ => reads (get_expression a0)
                  end in
  let! fill := nil_ptrs (length formals - length args) in
  let actuals := args ++ fill in
  bind_formals formals actuals c ;;
  let! ap := new_list_ptr actuals in
  scope_set c k_args ap ;;
  (if (length formals <? length actuals)%nat then
     let! xo := new_list_obj (skipn (length formals) actuals) in
     let! xp := new_var_ptr (mkv TList xo) in
     scope_set c k_addargs xp
   else ret tt) ;;
  mod_scope c (set_closure (Some ds)) ;;
  let! dsc := reads (get_scope ds) in
  mod_scope c (set_needlv (s_needlv dsc)) ;;
  let! body := arg 1 fargs in
  let! r := try_catch (r_eval R body c) (fun e =>
              match e with
              | ELisp m _ => Some (r_dbg R (EvError m body c) ;; throw (ELispBase m))
              | ELispBase m => Some (r_dbg R (EvError m body c) ;; throw (ELispBase m))
              | _ => None
              end) in
  pop_next ls ;;
  ret r.

(** GetTokenBeforeDefn ... UpdateDocumentationInformationAtScope: Environment.cpp 1886-1951. *)
Definition token_before_defn (p : ptr) (s : sid) (st : state) : out (option token) :=
  let? o := deref p in
  match o with
  | OVar v =>
    let? t1 := previous_token s (v_tok v) st in
    let? t2 := previous_token s t1 st in
    previous_token s t2 st
  | _ => Val None
  end.
Definition formal_args_string (p : ptr) (st : state) : out str :=
  let? o := deref p in
  let? es := match o with
             | OVar v => if is_list v then list_value v st else Undef UBBadCast
             | OList l => get_vec l st
             | _ => Undef UBBadCast
             end in
  join_out $" " (fun p => ptr_str p st) es [].
Definition update_doc (args : list ptr) (s : sid) : M unit :=
  let! a0 := arg 0 args in
  let! t := reads (token_before_defn a0 s) in
  let doc := match t with
             | Some t => match tk_type t with TkComment => token_to_string t | _ => [] end
             | None => []
             end in
  let! a1 := arg 1 args in
  let! name := reads (ptr_str a0) in
  let! fa := reads (formal_args_string a1) in
  let sig := $"(" ++ name ++ match fa with [] => [] | _ => $" " end ++ fa ++ $")" in
  mod_scope s (set_userdoc (Some (sig, doc))).

(** defn_form_helper, Environment.cpp 1953-1983; [name] is def or gdef. *)
Definition global_function (g : sid) (name : str) : M fnval :=
  let! p := scope_index g name in
  let! v := lift (vref p) in
  reads (function_value v).
Definition defn_helper (R : recs) (name : str) (args : list ptr) (s : sid) : M result :=
  check_args name (Some 3%nat) args s ;;
  update_doc args s ;;
  let! g := global_of s in
  let! f := global_function g $"fn" in
  let! a0 := arg 0 args in
  let! nr := eval_arg_if_needed R a0 s in
  let! nv := some_var nr in
  let! n := reads (var_str nv) in
  mod_scope s (set_userdata (Some n)) ;;
  let! a1 := arg 1 args in let! a2 := arg 2 args in
  let! fr := r_call R f [a1; a2] s in
  mod_scope s (set_userdata None) ;;
  let! d := global_function g name in
  let! fv := some_var fr in
  let! fp := new_var_ptr fv in
  r_call R d [a0; fp] s.

(** Break, Environment.cpp 349-363. *)
Definition b_break (R : recs) (args : list ptr) (s : sid) : M result :=
  write_line $"break -> call stack:" ;;
  let! scs := reads (call_stack s) in
  let! d := lift (dump_lines (Some (Z.of_nat (length scs))) scs []) in
  write_line d ;;
  r_dbg R (EvBreak s) ;;
  some vundef.

(** ** Dispatch: the functions registered in Environment.cpp 2307-2493, called in Interpreter.cpp 201-212 *)
Definition call_builtin (R : recs) (b : builtin) : list ptr -> sid -> M result :=
  match b with
  | BFuel => b_fuel | BVersion => b_version | BCopyright => b_copyright | BHelp => b_help
  | BDoc => b_doc | BSearchDoc => b_searchdoc | BHtmlDoc => b_htmldoc | BBreak => b_break R
  | BVars => b_vars | BDelVar => b_delvar | BNeedLValue => b_needlvalue | BTracePrint => b_trace
  | BGetTracePrint => b_gettrace | BImport => b_import R | BTickCount => b_tickcount
  | BSleep => b_sleep | BDateTime => b_datetime | BPlatform => b_platform | BNop => b_nop
  | BReturn => b_return | BPrint => b_print | BPrintLn => b_println | BFormat => b_format
  | BFlush => b_flush | BReadLine => b_readline | BParseInteger => b_parseint
  | BParseFloat => b_parsefloat | BToInt => b_int | BToFloat => b_float | BSearch => b_search
  | BSlice => b_slice | BReplace => b_replace | BTrim => b_trim | BLower => b_lower | BUpper => b_upper
  | BNot => b_not | BEq => b_eq | BNe => b_ne | BLt => b_lt | BGt => b_gt | BLe => b_le | BGe => b_ge
  | BAdd => b_add | BSub => b_sub | BMul => b_mul | BDiv => b_div | BMod => b_mod
  | BShl => b_shl | BShr => b_shr | BBitAnd => b_bitand | BBitOr => b_bitor | BBitXor => b_bitxor
  | BBitNot => b_bitnot | BList => b_list | BMap => b_map R | BReduce => b_reduce R | BCons => b_cons
  | BLength => b_len | BFirst => b_first | BLast => b_last | BRest => b_rest | BNth => b_nth
  | BPush => b_push | BPop => b_pop | BAppend => b_append | BReverse => b_reverse
  | BRValue => b_rval R | BSym => b_sym | BToString => b_str | BArgsCount => b_argscount
  | BArgs => b_args | BArg => b_arg | BApply => b_apply R | BEval => b_eval R | BEvalStr => b_evalstr R
  | BType => b_type | BTypeStr => b_typestr
  | BMakeDict => b_makedict | BDictSet => b_dictset | BDictGet => b_dictget | BDictRemove => b_dictremove
  | BDictKeys => b_dictkeys | BDictClear => b_dictclear | BDictContainsKey => b_dicthaskey
  | BDictContainsValue => b_dicthasvalue
  | BMathPi => b_pi
  | BMathSin => math1 $"Math-Sin" libm | BMathSinh => math1 $"Math-Sinh" libm
  | BMathAsin => math1 $"Math-Asin" libm | BMathCos => math1 $"Math-Cos" libm
  | BMathCosh => math1 $"Math-Cosh" libm | BMathAcos => math1 $"Math-Acos" libm
  | BMathTan => math1 $"Math-Tan" libm | BMathTanh => math1 $"Math-Tanh" libm
  | BMathAtan => math1 $"Math-Atan" libm | BMathExp => math1 $"Math-Exp" libm
  | BMathLog => math1 $"Math-Log" libm | BMathLog10 => math1 $"Math-Log10" libm
  | BMathSqrt => math1 $"Math-Sqrt" (fun d => Val (fsqrt d))
  | BMathRound => math1 $"Math-Round" (fun d => Val (fround d))
  | BMathTrunc => math1 $"Math-Truncated" (fun d => Val (ftrunc d))
  | BMathAbs => math1 $"Math-Abs" (fun d => Val (fabs d))
  | BMathFloor => math1 $"Math-Floor" (fun d => Val (ffloor d))
  | BMathCeil => math1 $"Math-Ceiling" (fun d => Val (fceil d))
  | BMathPow => b_pow
  | BFileExists => b_fileexists | BFileRead => b_fileread | BFileWrite => b_filewrite
  | BAnd => b_and R | BOr => b_or R | BDef => b_def R | BGDef => b_gdef R | BSetf => b_setf R
  | BDefMacroEval => b_defmacroeval R | BDefMacroExpand => b_defmacroexpand R
  | BQuote => b_quote | BQuasiquote => b_quasiquote R | BUnquote => b_unquote
  | BUnquoteSplicing => b_unquotesplicing | BIf => b_if R | BWhile => b_while R | BDo => b_do R
  | BFn => b_fn | BDefn => defn_helper R $"def" | BGDefn => defn_helper R $"gdef"
  end.

Definition call (R : recs) (f : fnval) (args : list ptr) (s : sid) : M result :=
  match fn_code f with
  | CBuiltin b => call_builtin R b args s
  | CClosure name modname fargs ds => call_closure R name modname fargs ds args s
  end.

(** ** Lisp::Eval *)

(** The tree built by the parser as objects, Parser.cpp 58-152. *)
Fixpoint load_tree (t : ptree) : M ptr :=
  match t with
  | PTok tk => new_var_ptr (var_of_token tk)
  | PSym n => new_var_ptr (mkv TSym (OString n))
  | PList ts =>
    let! ps := (fix go (ts : list ptree) : M (list ptr) :=
                  match ts with
                  | [] => ret []
                  | t :: ts' => let! p := load_tree t in let! ps := go ts' in ret (p :: ps)
                  end) ts in
    new_list_ptr ps
  end.

(** Lisp::Eval, Lisp.cpp 114-141, for an existing scope; LispParser::Parse, Parser.cpp 39-56. *)
Definition lisp_eval (R : recs) (tracing onlyexpand : bool) (code : str) (s : sid) (modname : str) : M result :=
  mod_scope s (set_module modname) ;;
  mod_scope s (set_tracing tracing) ;;
  let! ts := lift (tokenize (decorate code) 4) in
  mod_scope s (set_tokens ts) ;;
  let! tree := lift (parse_toplevel modname ts) in
  let! ast := load_tree tree in
  let! ap := copy_ptr ast in
  let! ep := r_expand R ap s in
  let! xp := copy_ptr ep in
  if onlyexpand then let! v := lift (var_of_ptr xp) in some v
  else r_eval R xp s.

(** ** The knot *)
(** No debugger attached (GlobalScope->Debugger is null); Break warns, Environment.cpp 360. *)
Definition no_debugger (e : dbgev) : M unit :=
  match e with
  | EvBreak _ => write_line $"Warning: can not break, because no debugger support availabe!"
  | _ => ret tt
  end.
Definition step (R : recs) : recs :=
  Recs (eval_ast R) (call R) (expand_loop R) (expand_once R) (replace_symbol R) (quasi R)
       (while_loop R) (lisp_eval R false false) no_debugger.

(** The recursion of Interpreter.cpp 74-307 unrolled once, with a debugger attached or not; see Debugger.v. *)
Definition step_with (R : recs) (d : dbgev -> M unit) : recs :=
  Recs (eval_ast R) (call R) (expand_loop R) (expand_once R) (replace_symbol R) (quasi R)
       (while_loop R) (lisp_eval R false false) d.

Definition no_fuel {A} : M A := lift NoFuel.

(** [run n]: the functions of Interpreter.cpp 74-307 and Environment.cpp 526-1983 with at most [n] nested calls; beyond that NoFuel, which every
    theorem excludes. *)
Fixpoint run (n : nat) : recs :=
  match n with
  | O => Recs (fun _ _ => no_fuel) (fun _ _ _ => no_fuel) (fun _ _ => no_fuel) (fun _ _ => no_fuel)
              (fun _ _ _ _ => no_fuel) (fun _ _ => no_fuel) (fun _ _ _ _ => no_fuel)
              (fun _ _ _ => no_fuel) no_debugger
  | S n' => step (run n')
  end.
