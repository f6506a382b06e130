(** Vocabulary for statements about what a piece of code can reach.  Nothing here models code. *)
Require Import String Ascii List ZArith Bool Lia.
Require Import PArith FMapPositive.
From Verif Require Import Base CppString Num Token Value State Builtins Eval LispTop SpecRun.
Import ListNotations.

(** What can be changed in place: the variables of a scope, a list, a dictionary. *)
Inductive node := NScope (s : sid) | NList (l : loc) | NDict (l : loc).

Definition exists_in (st : state) (n : node) : Prop :=
  match n with
  | NScope s => scope_at st s <> None
  | NList l => vec_at st l <> None
  | NDict l => dict_at st l <> None
  end.

Definition place_of (lv : lval) : ptr := match lv with LvFirst p | LvLast p => p | LvNth p _ => p end.

(** [part o q]: [q] is [o] or sits inside of it, without following a reference to a list, a dictionary
    or a scope. *)
Inductive part : obj -> obj -> Prop :=
| part_self : forall o, part o o
| part_var : forall t o u k q, part o q -> part (OVar (MkVar t (Some o) u k)) q
| part_code : forall n m args s sg d bi sp ex md i o q,
    In (P i o) args -> part o q -> part (OFun (MkFn (CClosure n m args s) sg d bi sp ex md)) q
| part_formal : forall r fs bs i o q, In (P i o) fs -> part o q -> part (OMacro r fs bs) q
| part_body : forall r fs bs i o q, In (P i o) bs -> part o q -> part (OMacro r fs bs) q
| part_place : forall lv i o q, place_of lv = P i o -> part o q -> part (OLValue lv) q.

(** The list, dictionary or scope a value is a reference to. *)
Inductive refers : obj -> node -> Prop :=
| refers_list : forall l, refers (OList l) (NList l)
| refers_dict : forall l, refers (ODict l) (NDict l)
| refers_scope : forall s, refers (OScope s) (NScope s)
| refers_fun : forall n m args s sg d bi sp ex md, refers (OFun (MkFn (CClosure n m args s) sg d bi sp ex md)) (NScope s).
Definition names (o : obj) (n : node) : Prop := exists q, part o q /\ refers q n.
Definition ptr_names (p : ptr) (n : node) : Prop := match p with PNull => False | P _ o => names o n end.

(** The values held by a scope (its variables), a list (its elements), a dictionary (keys and values). *)
Definition holds_obj (st : state) (n : node) (o : obj) : Prop :=
  match n with
  | NScope s => exists sc k i, scope_at st s = Some sc /\ In (k, P i o) (s_vars sc)
  | NList l => exists es i, vec_at st l = Some es /\ In (P i o) es
  | NDict l => exists d key val, dict_at st l = Some d /\ In (key, val) d /\ (o = OVar key \/ val = Some o)
  end.

(** From a node to the nodes named by what it holds; from a scope also to the scope its function was
    created in and to its global scope.  The links to the calling and the called scope do not count. *)
Inductive linked (st : state) : node -> node -> Prop :=
| linked_holds : forall n o n', holds_obj st n o -> names o n' -> linked st n n'
| linked_closure : forall s sc c, scope_at st s = Some sc -> s_closure sc = Some c -> linked st (NScope s) (NScope c)
| linked_global : forall s sc, scope_at st s = Some sc -> linked st (NScope s) (NScope (s_global sc)).
Inductive reaches (st : state) (roots : node -> Prop) : node -> Prop :=
| reaches_root : forall n, roots n -> reaches st roots n
| reaches_link : forall n n', reaches st roots n -> linked st n n' -> reaches st roots n'.

(** The kind of object a type allows. *)
Definition kind_fits (t : ltype) (o : obj) : Prop :=
  match t, o with
  | _, OVar _ => False
  | TInt, OInt _ | TBool, OBool _ | TDouble, ODouble _ | TString, OString _ | TSym, OString _
  | TList, OList _ | TFun, OFun _ | TNative, ODict _ | TLValue, OLValue _ | TError, OString _ => True
  | TNil, _ => True
  | TUndef, (OUndef | ODict _ | OLValue _ | OScope _ | OMacro _ _ _) => True
  | _, _ => False
  end.
Definition shaped (o : obj) : Prop :=
  match o with
  | OInt z => (-2147483648 <= z <= 2147483647)%Z
  | OVar v => match v_val v with Some o' => kind_fits (v_ty v) o' | None => v_ty v = TNil \/ v_ty v = TUndef end
  | _ => True
  end.
(** A value of the right kinds throughout and without dangling references. *)
Definition valid (st : state) (o : obj) : Prop :=
  (forall q, part o q -> shaped q) /\ (forall n, names o n -> exists_in st n).
Definition ptr_valid (st : state) (p : ptr) : Prop := match p with PNull => True | P _ o => valid st o end.

Fixpoint increasing (vs : list (str * ptr)) : Prop :=
  match vs with
  | [] => True
  | (k, _) :: vs' => (forall kv, In kv vs' -> str_cmp k (fst kv) = Lt) /\ increasing vs'
  end.
(** A sound state: only valid values, no dangling links, links to older scopes, variables sorted by name. *)
Record sound (st : state) : Prop := {
  so_values : forall n o, holds_obj st n o -> valid st o;
  so_global : forall s sc, scope_at st s = Some sc -> exists_in st (NScope (s_global sc));
  so_closure : forall s sc c, scope_at st s = Some sc -> s_closure sc = Some c -> exists_in st (NScope c) /\ (c < s)%positive;
  so_prev : forall s sc c, scope_at st s = Some sc -> s_prev sc = Some c -> exists_in st (NScope c) /\ (c < s)%positive;
  so_next : forall s sc c, scope_at st s = Some sc -> s_next sc = Some c -> exists_in st (NScope c);
  so_sorted : forall s sc, scope_at st s = Some sc -> increasing (s_vars sc);
  so_scopes : forall s, exists_in st (NScope s) -> (s < st_nsid st)%positive;
  so_lists : forall l, exists_in st (NList l) -> (l < st_nloc st)%positive;
  so_dicts : forall l, exists_in st (NDict l) -> (l < st_nloc st)%positive }.

(** The node holds the same as before. *)
Definition same_contents (st st' : state) (n : node) : Prop :=
  match n with
  | NScope s => exists sc sc', scope_at st s = Some sc /\ scope_at st' s = Some sc' /\ s_vars sc' = s_vars sc
  | NList l => vec_at st' l = vec_at st l
  | NDict l => dict_at st' l = dict_at st l
  end.

(** What an expression evaluated in scope [s] starts from; what a function starts from that was created by
    a program and is called from a scope with the global scope [g]. *)
Definition roots_eval (p : ptr) (s : sid) (n : node) : Prop := n = NScope s \/ ptr_names p n.
Definition roots_call (f : fnval) (args : list ptr) (g : sid) (n : node) : Prop :=
  n = NScope g \/ names (OFun f) n \/ exists p, In p args /\ ptr_names p n.
Definition roots_result (o : out result) (n : node) : Prop :=
  exists v, o = Val (Some v) /\ names (OVar v) n.

(** The function was created by a program (it is not built in). *)
Definition closure_fn (f : fnval) : Prop := match fn_code f with CClosure _ _ _ _ => True | CBuiltin _ => False end.
(** Nothing outside of [S] refers to anything in [S]. *)
Definition closed_off (st : state) (S : node -> Prop) : Prop :=
  (forall n, S n -> exists_in st n) /\ (forall n n', exists_in st n -> ~ S n -> linked st n n' -> ~ S n').

(** What a computation leaves behind for the part [S] of the memory that it cannot get at: the same contents; still
    nothing else refers to it, and neither does the result. *)
Definition kept_aside (st : state) (S : node -> Prop) (o : out result) (st' : state) : Prop :=
  sound st' /\ closed_off st' S /\ (forall n, S n -> same_contents st st' n) /\ (forall n, exists_in st n -> exists_in st' n) /\
  (forall n, roots_result o n -> exists_in st' n /\ ~ S n).
(** What existed before and could not be reached from the roots is as before, and can be reached neither from
    the roots nor from the result. *)
Definition confined (st : state) (roots : node -> Prop) (o : out result) (st' : state) : Prop :=
  sound st' /\ (forall n, exists_in st n -> exists_in st' n) /\
  (forall n, exists_in st n -> ~ reaches st roots n -> same_contents st st' n /\ ~ reaches st' (fun x => roots x \/ roots_result o x) n).
