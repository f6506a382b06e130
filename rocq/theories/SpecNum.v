(** Vocabulary for statements about numbers, comparisons and bits.  Nothing here models code. *)
Require Import String Ascii List ZArith Bool Lia.
From Verif Require Import Base CppString Num Token Value State Builtins Eval LispTop SpecRun SpecVal.
Import ListNotations.

Definition fits (z : Z) : Prop := (-2147483648 <= z <= 2147483647)%Z.
(** The arguments are the integers [zs]. *)
Definition int_args (args : list ptr) (zs : list Z) : Prop :=
  Forall2 (fun p z => exists i v, p = P i (OVar v) /\ is_int v z) args zs.
(** All results of combining the numbers from left to right fit into 32 bits. *)
Fixpoint all_fit (f : Z -> Z -> Z) (z : Z) (zs : list Z) : Prop :=
  match zs with
  | [] => True
  | y :: zs' => fits (f z y) /\ all_fit f (f z y) zs'
  end.
(** The operators without division; one operand of - means its negation. *)
Definition operation (name : str) (f : Z -> Z -> Z) : Prop :=
  (name = $"+" /\ f = Z.add) \/ (name = $"-" /\ f = Z.sub) \/ (name = $"*" /\ f = Z.mul).

(** Quotient and remainder rounding towards zero. *)
Definition divides_to (a b q r : Z) : Prop :=
  (a = b * q + r /\ Z.abs r < Z.abs b /\ 0 <= a * r)%Z.

(** Byte-wise lexicographic order of texts. *)
Inductive lex_lt : str -> str -> Prop :=
| lx_end : forall c b, lex_lt [] (c :: b)
| lx_here : forall c d a b, (nat_of_ascii c < nat_of_ascii d)%nat -> lex_lt (c :: a) (d :: b)
| lx_later : forall c a b, lex_lt a b -> lex_lt (c :: a) (c :: b).

(** A comparison applied to two arguments yields the truth value of [Q]. *)
Definition decides (name : str) (v w : variant) (Q : Prop) : Prop :=
  forall i j s st, exists b, (b = true <-> Q) /\
    builtin_pure name [P i (OVar v); P j (OVar w)] s st (fun r => is_bool r b).
(** A binary operator applied to two integers yields [z]. *)
Definition gives (name : str) (v w : variant) (z : Z) : Prop :=
  forall i j s st, builtin_pure name [P i (OVar v); P j (OVar w)] s st (fun r => is_int r z).
Definition gives_undef (name : str) (v w : variant) (u : ub) : Prop :=
  forall i j s st, builtin_call name [P i (OVar v); P j (OVar w)] s st (Undef u) st.
