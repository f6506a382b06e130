(** The state of a running interpreter and the monad the evaluator is written in. *)
Require Import String Ascii List ZArith Bool Lia.
Require Import PArith FMapPositive.
From Verif Require Import Base CppString Num Token Value.
Import ListNotations.

(** LispScope, Scope.h 51-190.  The map of variables is std::map<string, shared_ptr<object>>:
    an association list sorted by the bytes of the name, without duplicates.
    Left out: Debugger (which debugger is attached: [r_dbg] of Eval.v), Output and
    Input (one writer and one reader shared by all scopes, in the state).
    [s_global] is GlobalScope, null in C++ only while the main scope is built
    (Environment.cpp 2298-2330).  [s_userdata] is UserData: the only object ever
    stored is a string (Environment.cpp 1965); [s_userdoc] is UserDoc: signature and
    documentation. Tracing is uninitialised until Lisp::Eval sets it (Lisp.cpp 119);
    it is only read at GlobalScope (Interpreter.cpp 165). *)
Record scope := Scope {
  s_vars : list (str * ptr);
  s_name : str;
  s_module : str;
  s_global : sid;
  s_closure : option sid;
  s_prev : option sid;
  s_next : option sid;
  s_needlv : bool;
  s_inret : bool;
  s_ineval : bool;
  s_tracing : bool;
  s_token : option token;
  s_userdata : option str;
  s_userdoc : option (str * str);
  s_tokens : list token }.

(** Dictionary<LispVariant, shared_ptr<object>>, cstypes.h 182-230: entries in key order. *)
Definition dictv := list (variant * option obj).

(** What the interpreter cannot change: which file names can be opened for writing
    (std::ofstream, Environment.cpp 115-120), the FUELPATH environment variable and
    the library path given with -l. *)
Record env := Env {
  e_canwrite : str -> bool;
  e_fuelpath : option str;
  e_libpath : str }.

(** What LispDebugger remembers, Debugger.h 51-104: the list of breakpoints (line number,
    module, condition), whether the program shall stop, the test installed by the
    last stepping command, and the script given on the command line. *)
Record bpoint := Bp { bp_line : Z; bp_module : str; bp_cond : str }.
Inductive stopat := StopAlways | StopOver (depth : Z) | StopOut (depth : Z).
Record dbg := Dbg {
  d_bps : list bpoint;
  d_stop : bool;
  d_mode : stopat;
  d_script : str }.

Record state := State {
  st_vecs : PositiveMap.t (list ptr);
  st_dicts : PositiveMap.t dictv;
  st_scopes : PositiveMap.t scope;
  st_nid : positive;                  (* next fresh object tag *)
  st_nloc : positive;                 (* next fresh vector / dictionary *)
  st_nsid : positive;                 (* next fresh scope *)
  st_out : str;                       (* everything written to Output so far *)
  st_in : list str;                   (* the lines of Input not yet read *)
  st_files : list (str * str);        (* file name, content; latest first *)
  st_env : env;
  st_dbg : dbg }.                     (* the debugger, if one is attached (Debugger.v) *)

(** The monad of the model; no line of /repo corresponds to it, see DESIGN.md. *)
Definition M (A : Type) := state -> out A * state.

Definition ret {A} (a : A) : M A := fun st => (Val a, st).
(** The exception, or the end of the run, keeps the state reached so far. *)
Definition bind {A B} (m : M A) (f : A -> M B) : M B := fun st =>
  let '(o, st') := m st in
  match o with
  | Val a => f a st'
  | Throw e => (Throw e, st')
  | Undef u => (Undef u, st')
  | Unmod w => (Unmod w, st')
  | NoFuel => (NoFuel, st')
  end.
Definition lift {A} (o : out A) : M A := fun st => (o, st).
Definition throw {A} (e : exn) : M A := lift (Throw e).
Definition undef {A} (u : ub) : M A := lift (Undef u).
Definition unmod {A} (w : str) : M A := lift (Unmod w).
(** Read something off the state. *)
Definition reads {A} (f : state -> out A) : M A := fun st => (f st, st).
(** try { m } catch (...) as in Interpreter.cpp 56-66, Environment.cpp 1837-1873 and Lisp.cpp 145-184, with the handler [h]; [h] returns None
    if it does not catch the exception. *)
Definition try_catch {A} (m : M A) (h : exn -> option (M A)) : M A := fun st =>
  let '(o, st') := m st in
  match o with
  | Throw e => match h e with Some k => k st' | None => (Throw e, st') end
  | _ => (o, st')
  end.

Notation "'let!' x := m 'in' k" := (bind m (fun x => k))
  (at level 200, x pattern, right associativity).
Notation "m ;; k" := (bind m (fun _ => k)) (at level 199, right associativity).

(** ** Heap: reading through the pointers of csobject.h 106-125 *)
Definition get_vec (l : loc) (st : state) : out (list ptr) :=
  match PositiveMap.find l (st_vecs st) with Some es => Val es | None => Undef UBBadPtr end.
Definition get_dict (l : loc) (st : state) : out dictv :=
  match PositiveMap.find l (st_dicts st) with Some d => Val d | None => Undef UBBadPtr end.
Definition get_scope (s : sid) (st : state) : out scope :=
  match PositiveMap.find s (st_scopes st) with Some sc => Val sc | None => Undef UBBadPtr end.

Definition with_vecs (v : PositiveMap.t (list ptr)) (st : state) : state :=
  State v (st_dicts st) (st_scopes st) (st_nid st) (st_nloc st) (st_nsid st) (st_out st) (st_in st) (st_files st) (st_env st) (st_dbg st).
Definition with_dicts (v : PositiveMap.t dictv) (st : state) : state :=
  State (st_vecs st) v (st_scopes st) (st_nid st) (st_nloc st) (st_nsid st) (st_out st) (st_in st) (st_files st) (st_env st) (st_dbg st).
Definition with_scopes (v : PositiveMap.t scope) (st : state) : state :=
  State (st_vecs st) (st_dicts st) v (st_nid st) (st_nloc st) (st_nsid st) (st_out st) (st_in st) (st_files st) (st_env st) (st_dbg st).
Definition with_nid (v : positive) (st : state) : state :=
  State (st_vecs st) (st_dicts st) (st_scopes st) v (st_nloc st) (st_nsid st) (st_out st) (st_in st) (st_files st) (st_env st) (st_dbg st).
Definition with_nloc (v : positive) (st : state) : state :=
  State (st_vecs st) (st_dicts st) (st_scopes st) (st_nid st) v (st_nsid st) (st_out st) (st_in st) (st_files st) (st_env st) (st_dbg st).
Definition with_nsid (v : positive) (st : state) : state :=
  State (st_vecs st) (st_dicts st) (st_scopes st) (st_nid st) (st_nloc st) v (st_out st) (st_in st) (st_files st) (st_env st) (st_dbg st).
Definition with_out (v : str) (st : state) : state :=
  State (st_vecs st) (st_dicts st) (st_scopes st) (st_nid st) (st_nloc st) (st_nsid st) v (st_in st) (st_files st) (st_env st) (st_dbg st).
Definition with_in (v : list str) (st : state) : state :=
  State (st_vecs st) (st_dicts st) (st_scopes st) (st_nid st) (st_nloc st) (st_nsid st) (st_out st) v (st_files st) (st_env st) (st_dbg st).
Definition with_files (v : list (str * str)) (st : state) : state :=
  State (st_vecs st) (st_dicts st) (st_scopes st) (st_nid st) (st_nloc st) (st_nsid st) (st_out st) (st_in st) v (st_env st) (st_dbg st).

Definition with_dbg (v : dbg) (st : state) : state :=
  State (st_vecs st) (st_dicts st) (st_scopes st) (st_nid st) (st_nloc st) (st_nsid st) (st_out st) (st_in st) (st_files st) (st_env st) v.

(** std::make_shared<object>(o), csobject.h 160-186: a fresh object. *)
Definition new_ptr (o : obj) : M ptr := fun st =>
  (Val (P (st_nid st) o), with_nid (Pos.succ (st_nid st)) st).
(** new IEnumerable(es), csobject.cpp 40-44. *)
Definition alloc_vec (es : list ptr) : M loc := fun st =>
  (Val (st_nloc st), with_nloc (Pos.succ (st_nloc st)) (with_vecs (PositiveMap.add (st_nloc st) es (st_vecs st)) st)).
(** new Dictionary(d), csobject.cpp 126-130. *)
Definition alloc_dict (d : dictv) : M loc := fun st =>
  (Val (st_nloc st), with_nloc (Pos.succ (st_nloc st)) (with_dicts (PositiveMap.add (st_nloc st) d (st_dicts st)) st)).
Definition alloc_scope (sc : scope) : M sid := fun st =>
  (Val (st_nsid st), with_nsid (Pos.succ (st_nsid st)) (with_scopes (PositiveMap.add (st_nsid st) sc (st_scopes st)) st)).
(** Changing an existing vector (cstypes.h 56-178), dictionary (cstypes.h 182-230) or scope (Scope.h 51-190) in place. *)
Definition put_vec (l : loc) (es : list ptr) : M unit := fun st =>
  (Val tt, with_vecs (PositiveMap.add l es (st_vecs st)) st).
Definition put_dict (l : loc) (d : dictv) : M unit := fun st =>
  (Val tt, with_dicts (PositiveMap.add l d (st_dicts st)) st).
Definition put_scope (s : sid) (sc : scope) : M unit := fun st =>
  (Val tt, with_scopes (PositiveMap.add s sc (st_scopes st)) st).
Definition mod_scope (s : sid) (f : scope -> scope) : M unit :=
  let! sc := reads (get_scope s) in put_scope s (f sc).

(** TextWriter::Write(txt), cstypes.cpp 32-97. *)
Definition write_out (t : str) : M unit := fun st => (Val tt, with_out (st_out st ++ t) st).

(** TextReader::ReadLine, cstypes.cpp 109-138: the empty string past the end. *)
Definition read_line : M str := fun st =>
  match st_in st with
  | [] => (Val [], st)
  | l :: ls => (Val l, with_in ls st)
  end.

(** ReadFile and WriteTextFile, Environment.cpp 108-120; File_Exists 102-106. *)
Definition file_lookup (name : str) (st : state) : option str :=
  match List.find (fun kv => str_eqb (fst kv) name) (st_files st) with
  | Some kv => Some (snd kv) | None => None
  end.
Definition write_file (name txt : str) : M unit := fun st =>
  (Val tt, with_files ((name, txt) :: st_files st) st).

(** object(const object &), csobject.cpp 76-124: a list, dictionary or scope object is
    copied together with the container it owns; the elements stay shared. *)
Definition obj_copy (o : obj) : M obj :=
  match o with
  | OList l => let! es := reads (get_vec l) in let! l' := alloc_vec es in ret (OList l')
  | ODict l => let! d := reads (get_dict l) in let! l' := alloc_dict d in ret (ODict l')
  | OScope s => let! sc := reads (get_scope s) in let! s' := alloc_scope sc in ret (OScope s')
  | _ => ret o
  end.

(** std::make_shared<object>(IEnumerable), csobject.cpp 41-47. *)
Definition new_list_obj (es : list ptr) : M obj :=
  let! l := alloc_vec es in ret (OList l).
Definition new_list_ptr (es : list ptr) : M ptr :=
  let! o := new_list_obj es in new_ptr o.
(** std::make_shared<object>(LispVariant), csobject.cpp 34-38. *)
Definition new_var_ptr (v : variant) : M ptr := new_ptr (OVar v).

(** ** Variables of a scope: std::map<string, shared_ptr<object>>, Scope.h 51 and cstypes.h 182-230 *)
Fixpoint vars_find (k : str) (vs : list (str * ptr)) : option ptr :=
  match vs with
  | [] => None
  | (k', p) :: vs' => if str_eqb k k' then Some p else vars_find k vs'
  end.
Fixpoint vars_set (k : str) (p : ptr) (vs : list (str * ptr)) : list (str * ptr) :=
  match vs with
  | [] => [(k, p)]
  | (k', p') :: vs' =>
    match str_cmp k k' with
    | Lt => (k, p) :: vs
    | Eq => (k, p) :: vs'
    | Gt => (k', p') :: vars_set k p vs'
    end
  end.
Fixpoint vars_remove (k : str) (vs : list (str * ptr)) : list (str * ptr) :=
  match vs with
  | [] => []
  | (k', p) :: vs' => if str_eqb k k' then vs' else (k', p) :: vars_remove k vs'
  end.

(** Assignments to members of a LispScope, Scope.h 100-190. *)
Definition set_vars (v : list (str * ptr)) (sc : scope) : scope :=
  Scope v (s_name sc) (s_module sc) (s_global sc) (s_closure sc) (s_prev sc) (s_next sc) (s_needlv sc) (s_inret sc) (s_ineval sc) (s_tracing sc) (s_token sc) (s_userdata sc) (s_userdoc sc) (s_tokens sc).
Definition set_module (v : str) (sc : scope) : scope :=
  Scope (s_vars sc) (s_name sc) v (s_global sc) (s_closure sc) (s_prev sc) (s_next sc) (s_needlv sc) (s_inret sc) (s_ineval sc) (s_tracing sc) (s_token sc) (s_userdata sc) (s_userdoc sc) (s_tokens sc).
Definition set_closure (v : option sid) (sc : scope) : scope :=
  Scope (s_vars sc) (s_name sc) (s_module sc) (s_global sc) v (s_prev sc) (s_next sc) (s_needlv sc) (s_inret sc) (s_ineval sc) (s_tracing sc) (s_token sc) (s_userdata sc) (s_userdoc sc) (s_tokens sc).
Definition set_prev (v : option sid) (sc : scope) : scope :=
  Scope (s_vars sc) (s_name sc) (s_module sc) (s_global sc) (s_closure sc) v (s_next sc) (s_needlv sc) (s_inret sc) (s_ineval sc) (s_tracing sc) (s_token sc) (s_userdata sc) (s_userdoc sc) (s_tokens sc).
Definition set_next (v : option sid) (sc : scope) : scope :=
  Scope (s_vars sc) (s_name sc) (s_module sc) (s_global sc) (s_closure sc) (s_prev sc) v (s_needlv sc) (s_inret sc) (s_ineval sc) (s_tracing sc) (s_token sc) (s_userdata sc) (s_userdoc sc) (s_tokens sc).
Definition set_needlv (v : bool) (sc : scope) : scope :=
  Scope (s_vars sc) (s_name sc) (s_module sc) (s_global sc) (s_closure sc) (s_prev sc) (s_next sc) v (s_inret sc) (s_ineval sc) (s_tracing sc) (s_token sc) (s_userdata sc) (s_userdoc sc) (s_tokens sc).
Definition set_inret (v : bool) (sc : scope) : scope :=
  Scope (s_vars sc) (s_name sc) (s_module sc) (s_global sc) (s_closure sc) (s_prev sc) (s_next sc) (s_needlv sc) v (s_ineval sc) (s_tracing sc) (s_token sc) (s_userdata sc) (s_userdoc sc) (s_tokens sc).
Definition set_ineval (v : bool) (sc : scope) : scope :=
  Scope (s_vars sc) (s_name sc) (s_module sc) (s_global sc) (s_closure sc) (s_prev sc) (s_next sc) (s_needlv sc) (s_inret sc) v (s_tracing sc) (s_token sc) (s_userdata sc) (s_userdoc sc) (s_tokens sc).
Definition set_tracing (v : bool) (sc : scope) : scope :=
  Scope (s_vars sc) (s_name sc) (s_module sc) (s_global sc) (s_closure sc) (s_prev sc) (s_next sc) (s_needlv sc) (s_inret sc) (s_ineval sc) v (s_token sc) (s_userdata sc) (s_userdoc sc) (s_tokens sc).
Definition set_token (v : option token) (sc : scope) : scope :=
  Scope (s_vars sc) (s_name sc) (s_module sc) (s_global sc) (s_closure sc) (s_prev sc) (s_next sc) (s_needlv sc) (s_inret sc) (s_ineval sc) (s_tracing sc) v (s_userdata sc) (s_userdoc sc) (s_tokens sc).
Definition set_userdata (v : option str) (sc : scope) : scope :=
  Scope (s_vars sc) (s_name sc) (s_module sc) (s_global sc) (s_closure sc) (s_prev sc) (s_next sc) (s_needlv sc) (s_inret sc) (s_ineval sc) (s_tracing sc) (s_token sc) v (s_userdoc sc) (s_tokens sc).
Definition set_userdoc (v : option (str * str)) (sc : scope) : scope :=
  Scope (s_vars sc) (s_name sc) (s_module sc) (s_global sc) (s_closure sc) (s_prev sc) (s_next sc) (s_needlv sc) (s_inret sc) (s_ineval sc) (s_tracing sc) (s_token sc) (s_userdata sc) v (s_tokens sc).
Definition set_tokens (v : list token) (sc : scope) : scope :=
  Scope (s_vars sc) (s_name sc) (s_module sc) (s_global sc) (s_closure sc) (s_prev sc) (s_next sc) (s_needlv sc) (s_inret sc) (s_ineval sc) (s_tracing sc) (s_token sc) (s_userdata sc) (s_userdoc sc) v.

(** scope[key] = p, std::map operator[] (cstypes.h 182). *)
Definition scope_set (s : sid) (k : str) (p : ptr) : M unit :=
  mod_scope s (fun sc => set_vars (vars_set k p (s_vars sc)) sc).
(** scope[key] read, std::map operator[] (cstypes.h 182): inserts a null pointer if the key is missing. *)
Definition scope_index (s : sid) (k : str) : M ptr :=
  let! sc := reads (get_scope s) in
  match vars_find k (s_vars sc) with
  | Some p => ret p
  | None => scope_set s k PNull ;; ret PNull
  end.
(** ContainsKey(key, &value), cstypes.h 195-204. *)
Definition scope_find (s : sid) (k : str) (st : state) : out (option ptr) :=
  let? sc := get_scope s st in Val (vars_find k (s_vars sc)).
