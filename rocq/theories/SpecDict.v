(** Vocabulary for statements about dictionaries.  Nothing here models code. *)
Require Import String Ascii List ZArith Bool Lia Sorted.
Require Import PArith FMapPositive.
From Verif Require Import Base CppString Num Token Value State Builtins Eval LispTop SpecRun SpecVal SpecNum SpecList.
Import ListNotations.

(** Keys of one kind: integers, or texts without NUL. *)
Inductive kind := Ints | Texts.
Inductive key := KInt (z : Z) | KText (t : str).
Definition key_of (kd : kind) (v : variant) (k : key) : Prop :=
  match kd, k with
  | Ints, KInt z => is_int v z
  | Texts, KText t => is_str v t /\ ~ In c_nul t
  | _, _ => False
  end.
Definition key_lt (a b : key) : Prop :=
  match a, b with
  | KInt x, KInt y => (x < y)%Z
  | KText x, KText y => lex_lt x y
  | _, _ => False
  end.
Lemma key_dec : forall a b : key, {a = b} + {a <> b}.
Proof. decide equality; [apply Z.eq_dec|apply (list_eq_dec ascii_dec)]. Defined.

(** What was done to a dictionary, the latest first, and what it then maps a key to. *)
Inductive dop := DSet (k : key) (o : obj) | DRemove (k : key) | DClear.
Fixpoint content (h : list dop) (k : key) : option obj :=
  match h with
  | [] => None
  | DSet k' o :: h' => if key_dec k k' then Some o else content h' k
  | DRemove k' :: h' => if key_dec k k' then None else content h' k
  | DClear :: _ => None
  end.
(** The keys of the map, in increasing order. *)
Definition keys_are (h : list dop) (ks : list key) : Prop :=
  StronglySorted key_lt ks /\ forall k, In k ks <-> content h k <> None.

(** The argument is the dictionary [l]. *)
Definition dict_arg_is (p : ptr) (l : loc) : Prop :=
  exists i v, p = P i (OVar v) /\ v_ty v = TNative /\ v_val v = Some (ODict l).
Definition key_arg (kd : kind) (p : ptr) (k : key) : Prop := exists i v, p = P i (OVar v) /\ key_of kd v k.
(** The argument is a value with the content [o]. *)
Definition value_arg (p : ptr) (o : obj) : Prop :=
  exists i v, p = P i (OVar v) /\ v_val v = Some o /\ forall w, o <> OVar w.

(** The operations [h] were carried out on dictionary [l]; in between anything else happened that did not
    touch it. *)
Inductive history (kd : kind) (l : loc) : list dop -> state -> state -> Prop :=
| hi_start : forall st, history kd l [] st st
| hi_else : forall h st0 st st', history kd l h st0 st -> dict_at st' l = dict_at st l -> history kd l h st0 st'
| hi_set : forall h st0 st p q v k o s r st', history kd l h st0 st -> dict_arg_is p l -> key_arg kd q k -> value_arg v o ->
    builtin_call $"dict-set" [p; q; v] s st (Val r) st' -> history kd l (DSet k o :: h) st0 st'
| hi_remove : forall h st0 st p q k s r st', history kd l h st0 st -> dict_arg_is p l -> key_arg kd q k ->
    builtin_call $"dict-remove" [p; q] s st (Val r) st' -> history kd l (DRemove k :: h) st0 st'
| hi_clear : forall h st0 st p s r st', history kd l h st0 st -> dict_arg_is p l ->
    builtin_call $"dict-clear" [p] s st (Val r) st' -> history kd l (DClear :: h) st0 st'.
(** Dictionary [l] was created by make-dict and then used as [h] says, with keys of kind [kd]. *)
Definition dictionary (kd : kind) (l : loc) (h : list dop) (st : state) : Prop :=
  exists s st0 r st1, builtin_call $"make-dict" [] s st0 (Val (Some r)) st1 /\ v_ty r = TNative /\ v_val r = Some (ODict l) /\
    history kd l h st1 st.

(** Nothing but dictionary [l] is changed. *)
Definition only_dict (st st' : state) (l : loc) : Prop :=
  (forall m, m <> l -> dict_at st' m = dict_at st m) /\ st_vecs st' = st_vecs st /\
  st_scopes st' = st_scopes st /\ st_out st' = st_out st /\ st_in st' = st_in st /\ st_files st' = st_files st /\
  st_env st' = st_env st.
