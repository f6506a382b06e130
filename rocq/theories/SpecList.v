(** Vocabulary for statements about lists.  Nothing here models code. *)
Require Import String Ascii List ZArith Bool Lia.
Require Import PArith FMapPositive.
From Verif Require Import Base CppString Num Token Value State Builtins Eval LispTop SpecRun SpecVal.
Import ListNotations.

(** Lists and dictionaries are numbered below the next free number. *)
Definition heap_numbered (st : state) : Prop :=
  (forall l es, vec_at st l = Some es -> (l < st_nloc st)%positive) /\
  (forall l d, dict_at st l = Some d -> (l < st_nloc st)%positive).

(** Nothing that existed is changed: lists, dictionaries, scopes, output, input and files. *)
Definition only_adds (st st' : state) : Prop :=
  (forall l es, vec_at st l = Some es -> vec_at st' l = Some es) /\
  (forall l d, dict_at st l = Some d -> dict_at st' l = Some d) /\
  st_scopes st' = st_scopes st /\ st_out st' = st_out st /\ st_in st' = st_in st /\ st_files st' = st_files st /\
  st_env st' = st_env st.

(** ... the list [l] is now [es], everything else is as before. *)
Definition list_becomes (st st' : state) (l : loc) (es : list ptr) : Prop :=
  vec_at st' l = Some es /\
  (forall m ds, m <> l -> vec_at st m = Some ds -> vec_at st' m = Some ds) /\
  (forall m d, dict_at st m = Some d -> dict_at st' m = Some d) /\
  st_scopes st' = st_scopes st /\ st_out st' = st_out st /\ st_in st' = st_in st /\ st_files st' = st_files st /\
  st_env st' = st_env st.

(** The value is a list that did not exist before, with the given elements; it is not marked for splicing. *)
Definition new_list_of (st st' : state) (v : variant) (es : list ptr) : Prop :=
  exists l, vec_at st l = None /\ is_list_at st' v l es /\ v_unq v = UnqNone.
(** The call returns a new list with the given elements and has no other effect. *)
Definition builtin_list (name : str) (args : list ptr) (s : sid) (st : state) (es : list ptr) : Prop :=
  exists r st', builtin_call name args s st (Val (Some r)) st' /\ new_list_of st st' r es /\ only_adds st st' /\
    heap_numbered st'.

(** The argument is a list (or nil, the empty list) with the given elements. *)
Definition list_arg (st : state) (p : ptr) (es : list ptr) : Prop :=
  exists i v, p = P i (OVar v) /\ ((exists l, is_list_at st v l es) \/ (v_ty v = TNil /\ es = [])).
(** The value an element of a list stands for: a variant, or a quoted list. *)
Inductive element : ptr -> variant -> Prop :=
| el_var : forall i v, element (P i (OVar v)) v
| el_list : forall i l, element (P i (OList l)) (mkv TList (OList l)).
(** The calling scope asks for values, not for places to assign to. *)
Definition asks_value (st : state) (s : sid) : Prop :=
  exists sc, scope_at st s = Some sc /\ s_needlv sc = false.
(** An element handed to a function of map or reduce: the same value in a new object; a quoted list is
    copied, its elements are shared. *)
Inductive copied : ptr -> state -> ptr -> state -> Prop :=
| cp_var : forall i v st, copied (P i (OVar v)) st (P (st_nid st) (OVar v)) (with_nid (Pos.succ (st_nid st)) st)
| cp_list : forall i l es st, vec_at st l = Some es ->
    copied (P i (OList l)) st (P (st_nid st) (OList (st_nloc st)))
      (with_nid (Pos.succ (st_nid st)) (with_nloc (Pos.succ (st_nloc st))
        (with_vecs (PositiveMap.add (st_nloc st) es (st_vecs st)) st))).
(** A value put into a new object. *)
Definition boxed (v : variant) (st : state) (p : ptr) (st' : state) : Prop :=
  p = P (st_nid st) (OVar v) /\ st' = with_nid (Pos.succ (st_nid st)) st.
(** Calling [f] on the elements one after the other, from left to right, gives the values. *)
Inductive maps_to (f : fnval) (s : sid) : list ptr -> state -> list ptr -> list variant -> state -> Prop :=
| mp_nil : forall st, maps_to f s [] st [] [] st
| mp_cons : forall e es st a st1 v st2 p st3 ps vs st4, copied e st a st1 -> calls f [a] s st1 (Val (Some v)) st2 ->
    boxed v st2 p st3 -> maps_to f s es st3 ps vs st4 -> maps_to f s (e :: es) st (p :: ps) (v :: vs) st4.
(** Calling [f] on each element and the value so far, from left to right. *)
Inductive folds_to (f : fnval) (s : sid) : list ptr -> variant -> state -> variant -> state -> Prop :=
| fd_nil : forall acc st, folds_to f s [] acc st acc st
| fd_cons : forall e es acc st a st1 b st2 v st3 w st4, copied e st a st1 -> boxed acc st1 b st2 ->
    calls f [a; b] s st2 (Val (Some v)) st3 -> folds_to f s es v st3 w st4 -> folds_to f s (e :: es) acc st w st4.
(** The outcome of a call that did not return a value. *)
Definition fails (o o' : out result) : Prop :=
  match o with Val (Some _) => False | Val None => o' = Undef UBNullDeref | _ => o' = o end.
(** The optional position argument of push and pop. *)
Definition pos_args (i : positive) (pos : option Z) : list ptr := match pos with None => [] | Some z => [P i (OVar (vint z))] end.
(** Every element is a value or a quoted list. *)
Definition elements (es : list ptr) : Prop := Forall (fun e => exists v, element e v) es.
(** A state with the list (7 8 9) as list number 1, used by the examples. *)
Definition sample : state :=
  with_nloc 2 (with_vecs (PositiveMap.add 1%positive [P 1 (OVar (vint 7)); P 2 (OVar (vint 8)); P 3 (OVar (vint 9))] (PositiveMap.empty _)) fresh).
Definition sample_list : variant := mkv TList (OList 1%positive).
