(** Vocabulary for statements about values and builtin functions.  Nothing here models code. *)
Require Import String Ascii List ZArith Bool Lia.
Require Import PArith FMapPositive.
From Verif Require Import Base CppString Num Token Value State Builtins Eval LispTop SpecRun.
Import ListNotations.

(** What a value is, seen from outside: its type and content. *)
Definition is_int (v : variant) (z : Z) : Prop := v_ty v = TInt /\ v_val v = Some (OInt z).
Definition is_bool (v : variant) (b : bool) : Prop := v_ty v = TBool /\ v_val v = Some (OBool b).
Definition is_dbl (v : variant) (d : f64) : Prop := v_ty v = TDouble /\ v_val v = Some (ODouble d).
Definition is_str (v : variant) (t : str) : Prop := v_ty v = TString /\ v_val v = Some (OString t).
Definition is_sym (v : variant) (t : str) : Prop := v_ty v = TSym /\ v_val v = Some (OString t).
Definition is_fn (v : variant) (f : fnval) : Prop := v_ty v = TFun /\ v_val v = Some (OFun f).
Definition is_err (v : variant) (t : str) : Prop := v_ty v = TError /\ v_val v = Some (OString t).
(** A list with the given elements in state [st]; [l] is its identity. *)
Definition is_list_at (st : state) (v : variant) (l : loc) (es : list ptr) : Prop :=
  v_ty v = TList /\ v_val v = Some (OList l) /\ vec_at st l = Some es.
Definition is_dict_at (st : state) (v : variant) (l : loc) (d : dictv) : Prop :=
  v_ty v = TNative /\ v_val v = Some (ODict l) /\ dict_at st l = Some d.

(** The function a fresh interpreter knows under a name. *)
Definition builtin_fn (name : str) : option fnval :=
  match vars_find name (fst main_vars) with
  | Some (P _ (OVar v)) => match v_val v with Some (OFun f) => Some f | _ => None end
  | _ => None
  end.

(** Calling the builtin function [name] from scope [s] ends in the given way. *)
Definition builtin_call (name : str) (args : list ptr) (s : sid) (st : state) (o : out result) (st' : state) : Prop :=
  exists f, builtin_fn name = Some f /\ calls f args s st o st'.
(** ... with the given value and without any effect. *)
Definition builtin_pure (name : str) (args : list ptr) (s : sid) (st : state) (Q : variant -> Prop) : Prop :=
  exists r, builtin_call name args s st (Val (Some r)) st /\ Q r.

(** An argument that is a text. *)
Definition text_arg (p : ptr) (t : str) : Prop := exists i v, p = P i (OVar v) /\ is_str v t.
(** [n] calls of readline one after the other return the texts. *)
Inductive read_times (s : sid) : nat -> state -> list str -> state -> Prop :=
| rt_0 : forall st, read_times s 0 st [] st
| rt_S : forall n st r t st1 ts st2, builtin_call $"readline" [] s st (Val (Some r)) st1 -> is_str r t ->
    read_times s n st1 ts st2 -> read_times s (S n) st (t :: ts) st2.
