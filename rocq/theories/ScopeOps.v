(** Scopes, name resolution, call stack, exceptions raised with a scope: Scope.cpp,
    Scope.h, Exception.cpp and the checking helpers of Environment.cpp. *)
Require Import String Ascii List ZArith Bool Lia.
Require Import PArith FMapPositive.
From Verif Require Import Base CppString Num Token Value State Show.
Import ListNotations.

(** The keys with a meaning to the interpreter, Environment.cpp 60-93. *)
Definition k_macros : str := $"###macros###".
Definition k_modules : str := $"###modules###".
Definition k_tracebuffer : str := $"###tracebuffer###".
Definition k_traceon : str := $"###traceon###".
Definition k_args : str := $"###args###".
Definition k_addargs : str := $"_additionalArgs".
Definition k_metatag : str := $"###".
Definition k_evalstrtag : str := $"<evalstr>:".

(** A scope just constructed, Scope.cpp 32-52, for a non-null GlobalScope [g] whose
    module name is [gmod]. *)
Definition fresh_scope (name : str) (g : sid) (gmod modname : str) : scope :=
  Scope [] name (match modname with [] => gmod | _ => modname end) g None None None
        false false false false None None None [].

(** new LispScope(name, globalScope, moduleName), Environment.cpp 589 and 1792, Scope.cpp 32-60. *)
Definition new_scope (name : str) (g : sid) (modname : str) : M sid :=
  let! gs := reads (get_scope g) in
  alloc_scope (fresh_scope name g (s_module gs) modname).

(** PushNextScope, PopNextScope: Scope.h 197-207. *)
Definition push_next (s c : sid) : M unit :=
  mod_scope s (set_next (Some c)) ;; mod_scope c (set_prev (Some s)).
Definition pop_next (s : sid) : M unit :=
  let! sc := reads (get_scope s) in
  match s_next sc with
  | None => undef UBNullDeref
  | Some c => mod_scope c (set_prev None) ;; mod_scope s (set_next None)
  end.

(** IsInClosureChain, Scope.cpp 54-67: the nearest closure scope that has the name and
    the value there.  A scope is created after the scope it closes over, so the
    chain has at most [Pos.to_nat s] members; running out would be an endless recursion. *)
Fixpoint closure_find (n : nat) (s : sid) (name : str) (st : state) : out (option (sid * ptr)) :=
  match n with
  | O => Undef UBScopeChain
  | S n' =>
    let? sc := get_scope s st in
    match s_closure sc with
    | None => Val None
    | Some c =>
      let? r := scope_find c name st in
      match r with
      | Some p => Val (Some (c, p))
      | None => closure_find n' c name st
      end
    end
  end.
Definition in_closure_chain (s : sid) (name : str) (st : state) : out (option (sid * ptr)) :=
  closure_find (Pos.to_nat s) s name st.

(** object::GetLispScopeRef, csobject.cpp 435-442, dereferenced by every caller. *)
Definition scope_ref (p : ptr) : out sid :=
  match p with
  | PNull => Undef UBNullDeref
  | P _ (OScope s) => Val s
  | P _ _ => Undef UBNullDeref
  end.

(** The loop of FindFunctionInModules, Environment.cpp 2032-2041. *)
Fixpoint modules_search (mods : list (str * ptr)) (name : str) (st : state) : out (option ptr) :=
  match mods with
  | [] => Val None
  | (_, p) :: mods' =>
    let? m := scope_ref p in
    let? r := scope_find m name st in
    match r with
    | Some v => Val (Some v)
    | None => modules_search mods' name st
    end
  end.

(** FindFunctionInModules, Environment.cpp 2024-2044; the lookup of ###modules### inserts
    a null pointer if the key is missing. *)
Definition find_in_modules (name : str) (g : sid) : M (option ptr) :=
  let! p := scope_index g k_modules in
  match p with
  | PNull => ret None
  | _ =>
    let! ms := lift (scope_ref p) in
    let! sc := reads (get_scope ms) in
    reads (modules_search (s_vars sc) name)
  end.

(** LispScope::ResolveInScopes, Scope.cpp 81-135.  The function cache is commented out
    in the code, so isFirst has no effect. *)
Definition resolve (s : sid) (elem : ptr) : M ptr :=
  let! name := reads (ptr_str elem) in
  let! own := reads (scope_find s name) in
  match own with
  | Some p => ret p
  | None =>
    let! sc := reads (get_scope s) in
    let! gl := reads (scope_find (s_global sc) name) in
    match gl with
    | Some p => ret p
    | None =>
      let! cl := reads (in_closure_chain s name) in
      match cl with
      | Some (_, p) => ret p
      | None =>
        let! m := find_in_modules name (s_global sc) in
        match m with
        | Some p => ret p
        | None => ret elem
        end
      end
    end
  end.

(** The scopes from [s] up along Previous, Scope.cpp 176-210: Name, line, ModuleName.
    Each Previous was created before the scope, hence the bound. *)
Fixpoint stack_of (n : nat) (s : sid) (st : state) : out (list scope) :=
  match n with
  | O => Undef UBScopeChain
  | S n' =>
    let? sc := get_scope s st in
    match s_prev sc with
    | None => Val [sc]
    | Some p => let? r := stack_of n' p st in Val (sc :: r)
    end
  end.
Definition call_stack (s : sid) (st : state) : out (list scope) := stack_of (Pos.to_nat s) s st.

(** std::to_string(size_t(-1)), Environment.cpp 158. *)
Definition size_max_str : str := $"18446744073709551615".

(** One line of DumpStackToString, Scope.cpp 203-205. *)
Definition stack_line (level : option Z) (i : Z) (sc : scope) : out str :=
  let cur := match level with Some l => if (l =? i)%Z then $"-->" else $"   " | None => $"   " end in
  let line := match s_token sc with Some t => z_to_string (tk_line t) | None => size_max_str end in
  Format ($"{0,3}{1,5} name={2,-35} lineno={3,-4} module={4}" ++ [c_nl])
         [cur; z_to_string i; s_name sc; line; s_module sc].

(** DumpStackToString, Scope.cpp 196-210; level = None is the default -1, which no
    stack position has. *)
Fixpoint dump_lines (level : option Z) (scs : list scope) (acc : str) : out str :=
  match scs with
  | [] => Val acc
  | sc :: scs' =>
    let? l := stack_line level (Z.of_nat (length scs)) sc in
    dump_lines level scs' (l ++ acc)
  end.
Definition dump_stack (level : option Z) (s : sid) (st : state) : out str :=
  let? scs := call_stack s st in dump_lines level scs [].

(** throw LispException(text, scope), Exception.cpp 31-44. *)
Definition scope_exn (msg : str) (s : sid) (st : state) : out exn :=
  let? stack := dump_stack None s st in
  let? sc := get_scope s st in
  let t := s_token sc in
  Val (ELisp msg (ErrInfo (tok_line t) (tok_start t) (tok_stop t) (s_module sc) stack)).
Definition throw_scope {A} (msg : str) (s : sid) : M A :=
  let! e := reads (scope_exn msg s) in throw e.

(** throw LispException(text, token, scope->ModuleName, scope->DumpStackToString()),
    Exception.cpp 52-59. *)
Definition throw_token {A} (msg : str) (t : option token) (s : sid) : M A :=
  let! stack := reads (dump_stack None s) in
  let! sc := reads (get_scope s) in
  throw (ELisp msg (ErrInfo (tok_line t) (tok_start t) (tok_stop t) (s_module sc) stack)).

(** LispScope::SetInScopes, Scope.cpp 137-156. *)
Definition set_in_scopes (s : sid) (name : str) (v : ptr) : M unit :=
  match name with
  | [] => throw_scope ($"Symbol " ++ name ++ $" not found") s
  | _ =>
    let! own := reads (scope_find s name) in
    match own with
    | Some _ => scope_set s name v
    | None =>
      let! cl := reads (in_closure_chain s name) in
      match cl with
      | Some (c, _) => scope_set c name v
      | None =>
        let! sc := reads (get_scope s) in
        let! gl := reads (scope_find (s_global sc) name) in
        match gl with
        | Some _ => scope_set (s_global sc) name v
        | None => throw_scope ($"Symbol " ++ name ++ $" not found") s
        end
      end
    end
  end.

(** LispToken::operator==, Token.cpp 153-161. *)
Definition toktype_code (t : toktype) : Z :=
  match t with
  | TkListStart => 0 | TkListEnd => 1 | TkSymbol => 2 | TkString => 3 | TkInt => 4 | TkDouble => 5
  | TkQuote => 6 | TkQuasiQuote => 7 | TkUnQuote => 8 | TkUnQuoteSplicing => 9
  | TkTrue => 10 | TkFalse => 11 | TkComment => 12 | TkNil => 13
  end.
Definition token_eqb (a b : token) : bool :=
  (toktype_code (tk_type a) =? toktype_code (tk_type b))%Z &&
  str_eqb (token_to_string a) (token_to_string b) &&
  (tk_start a =? tk_start b)%Z && (tk_stop a =? tk_stop b)%Z && (tk_line a =? tk_line b)%Z.

(** GetPreviousToken, Scope.cpp 158-174. *)
Fixpoint prev_token_in (ts : list token) (prev : option token) (t : token) : option token :=
  match ts with
  | [] => None
  | x :: ts' => if token_eqb x t then prev else prev_token_in ts' (Some x) t
  end.
Definition previous_token (s : sid) (t : option token) (st : state) : out (option token) :=
  let? sc := get_scope s st in
  Val (match t with None => None | Some t => prev_token_in (s_tokens sc) None t end).

(** CheckArgs, Environment.cpp 154-160; [count] = None is the argument -1. *)
Definition check_args (name : str) (count : option nat) (args : list ptr) (s : sid) : M unit :=
  if match count with None => true | Some n => negb (length args =? n)%nat end then
    let! m := lift (Format $"Bad argument count in {0}, has {1} expected {2}"
                      [name; z_to_string (Z.of_nat (length args));
                       match count with None => size_max_str | Some n => z_to_string (Z.of_nat n) end]) in
    throw_scope m s
  else ret tt.

(** CheckOptionalArgs, Environment.cpp 162-168. *)
Definition check_opt_args (name : str) (mn mx : nat) (args : list ptr) (s : sid) : M unit :=
  if (length args <? mn)%nat || (mx <? length args)%nat then
    let! m := lift (Format $"Bad argument count in {0}, has {1} expected between {2} and {3}"
                      [name; z_to_string (Z.of_nat (length args));
                       z_to_string (Z.of_nat mn); z_to_string (Z.of_nat mx)]) in
    throw_scope m s
  else ret tt.

(** args[i] of a std::vector, everywhere in Environment.cpp 267-2286. *)
Definition arg (i : nat) (args : list ptr) : M ptr :=
  match nth_error args i with Some p => ret p | None => undef UBIndex end.

(** *p for a shared_ptr<LispVariant> result, as in Environment.cpp 250-263. *)
Definition some_var (r : option variant) : M variant :=
  match r with Some v => ret v | None => undef UBNullDeref end.

(** TextWriter::WriteLine(txt) and the formatting overloads, cstypes.cpp 41-97. *)
Definition write_line (t : str) : M unit := write_out (t ++ [c_nl]).
Definition write_fmt (fmt : str) (args : list str) : M unit :=
  let! t := lift (Format fmt args) in write_line t.

(** CheckForFunction, Environment.cpp 144-152, and FunctionValue of the result. *)
Definition check_for_function (name : str) (p : ptr) (s : sid) : M fnval :=
  let! v := lift (vref p) in
  if is_ty TFun v then reads (function_value v) else throw_scope ($"No function in " ++ name) s.

(** LispEnvironment::CheckForList, Environment.cpp 2103-2123: the elements.  (A native
    object never holds a list, so lines 2110-2113 are unreachable except for the
    dereference of Value.) *)
Definition check_for_list (name : str) (p : ptr) (s : sid) : M (list ptr) :=
  let! o := lift (deref p) in
  match o with
  | OList l => reads (get_vec l)
  | _ =>
    let v := vref_obj o in
    if is_ty TNative v && match v_val v with None => true | _ => false end then undef UBTag
    else if is_list v then reads (list_value v)
    else
      let! t := reads (previous_token s (v_tok (var_of_obj o))) in
      throw_token ($"No list in " ++ name) t s
  end.

(** LispEnvironment::GetExpression, Environment.cpp 2088-2101.  IsList of an object that
    is a variant is false, so only raw lists are unwrapped. *)
Definition get_expression (p : ptr) (st : state) : out (list ptr) :=
  let? o := deref p in
  match o with
  | OList l => get_vec l st
  | _ => Val [p]
  end.

(** object::ToEnumerableOfObjectRef, csobject.cpp 506-509: no check of the kind. *)
Definition enumerable (p : ptr) (st : state) : out (list ptr) :=
  let? o := deref p in
  match o with OList l => get_vec l st | _ => Undef UBBadCast end.

(** object::ToListRef, csobject.cpp 446-454: g_EmptyList for other kinds. *)
Definition list_ref (p : ptr) (st : state) : out (list ptr) :=
  let? o := deref p in
  match o with OList l => get_vec l st | _ => Val [] end.

(** ExistsItem / QueryItem for ###macros###, Environment.cpp 2059-2080, 2138-2147: the
    macro registered under the text of [head], if any. *)
Definition get_macro (head : ptr) (g : sid) (st : state) : out (option ptr) :=
  let? ms := scope_find g k_macros st in
  match ms with
  | None => Val None
  | Some p =>
    let? m := scope_ref p in
    let? name := ptr_str head st in
    scope_find m name st
  end.

(** GetStringRepresentation, Environment.cpp 122-142.  The condition on ###traceon### tests
    the pointer, not the bool it points to. *)
Definition string_repr (args : list ptr) (s : sid) : M str :=
  let! text := reads (fun st => join_out $" " (fun p => ptr_str p st) args []) in
  let! on := reads (scope_find s k_traceon) in
  match on with
  | Some (P _ _) =>
    let! b := scope_index s k_tracebuffer in
    let! t := reads (ptr_str b) in
    let! p := new_ptr (OString (t ++ text)) in
    scope_set s k_tracebuffer p ;; ret text
  | _ => ret text
  end.
