(** Vocabulary for statements about arithmetic expressions and loops.  Nothing here models code. *)
Require Import String Ascii List ZArith Bool Lia.
Require Import PArith FMapPositive.
From Verif Require Import Base CppString Num Token Value State Builtins Eval LispTop SpecRun SpecVal SpecNum SpecList SpecForm.
Import ListNotations.

(** Two scopes with the same data apart from their variables and the place noted for error messages. *)
Definition kept_scope (a b : scope) : Prop :=
  s_name b = s_name a /\ s_module b = s_module a /\ s_global b = s_global a /\ s_closure b = s_closure a /\ s_prev b = s_prev a /\
  s_next b = s_next a /\ s_needlv b = s_needlv a /\ s_inret b = s_inret a /\ s_ineval b = s_ineval a /\ s_tracing b = s_tracing a /\
  s_userdata b = s_userdata a /\ s_userdoc b = s_userdoc a /\ s_tokens b = s_tokens a.
(** Only the variables in [V] may have changed, and the places noted for error messages. *)
Definition changes_only (V : sid -> str -> Prop) (st st' : state) : Prop :=
  (forall u n, ~ V u n -> var_at st' u n = var_at st u n) /\
  (forall u, scope_exists st' u <-> scope_exists st u) /\
  (forall u a b, scope_at st u = Some a -> scope_at st' u = Some b -> kept_scope a b /\ ((forall n, ~ V u n) -> s_vars b = s_vars a)) /\
  st_vecs st' = st_vecs st /\ st_dicts st' = st_dicts st /\ st_out st' = st_out st /\ st_in st' = st_in st /\
  st_files st' = st_files st /\ st_env st' = st_env st.
Definition no_var (u : sid) (n : str) : Prop := False.
Definition one_var (t : sid) (x : str) (u : sid) (n : str) : Prop := u = t /\ n = x.

(** The mathematical value of an expression made of integers, variables holding integers and the operators
    +, -, * with any number of operands, all intermediate results being 32-bit numbers. *)
Inductive denotes (st : state) (s : sid) : ptr -> Z -> Prop :=
| dn_number : forall i v z, is_int v z -> denotes st s (P i (OVar v)) z
| dn_variable : forall p x i v z, expr_sym p x -> sees st s x (Some (P i (OVar v))) -> is_int v z -> denotes st s p z
| dn_operation : forall i l j h name f args z zs, vec_at st l = Some (P j (OVar h) :: args) -> is_sym h name -> operation name f ->
    denote_all st s args (z :: zs) -> zs <> [] -> all_fit f z zs -> denotes st s (P i (OList l)) (fold_left f zs z)
| dn_negation : forall i l j h a z, vec_at st l = Some [P j (OVar h); a] -> is_sym h $"-" -> denotes st s a z -> fits (- z) ->
    denotes st s (P i (OList l)) (- z)
| dn_single : forall i l j h name a z, vec_at st l = Some [P j (OVar h); a] -> is_sym h name -> In name [$"+"; $"*"] -> denotes st s a z ->
    denotes st s (P i (OList l)) z
with denote_all (st : state) (s : sid) : list ptr -> list Z -> Prop :=
| da_nil : denote_all st s [] []
| da_cons : forall p ps z zs, denotes st s p z -> denote_all st s ps zs -> denote_all st s (p :: ps) (z :: zs).
(** Somewhere in the expression, everything to the left of it having a value, a result does not fit. *)
Inductive overflows (st : state) (s : sid) : ptr -> Prop :=
| ov_here : forall i l j h name f args z zs, vec_at st l = Some (P j (OVar h) :: args) -> is_sym h name -> operation name f ->
    denote_all st s args (z :: zs) -> ~ all_fit f z zs -> overflows st s (P i (OList l))
| ov_negation : forall i l j h a z, vec_at st l = Some [P j (OVar h); a] -> is_sym h $"-" -> denotes st s a z -> ~ fits (- z) ->
    overflows st s (P i (OList l))
| ov_argument : forall i l j h name ps zs p rest, vec_at st l = Some (P j (OVar h) :: ps ++ p :: rest) -> is_sym h name -> In name [$"+"; $"-"; $"*"] ->
    denote_all st s ps zs -> overflows st s p -> Forall (fun q => exists r, looked_up st s q r) rest -> overflows st s (P i (OList l)).

(** The three operators have their usual meaning in scope [s]. *)
Definition usual_operators (st : state) (s : sid) : Prop := standard st s $"+" /\ standard st s $"-" /\ standard st s $"*".
(** A variable that is not used by the interpreter itself and does not hide one of the given names. *)
Definition own_variable (st : state) (s t : sid) (x : str) (names : list str) : Prop :=
  x <> [] /\ x <> $"###modules###" /\ x <> $"###macros###" /\ ~ In x names /\
  exists sc, scope_at st s = Some sc /\ scope_exists st (s_global sc) /\ assigns st s x t /\
    (forall i ms, var_at st (s_global sc) $"###modules###" = Some (P i (OScope ms)) -> ms <> t) /\
    (t = s \/ t = s_global sc \/ var_at st (s_global sc) x = None).
(** The code (while (< x N) (setf x (+ x 1))). *)
Definition counting_loop (st : state) (p : ptr) (x : str) (N : Z) (tok : option token) (c b : ptr) : Prop :=
  form st p $"while" tok [c; b] /\
  exists ic lc ib lb ie le tc tb te x1 x2 x3 n one vn vo jn jo,
    c = P ic (OList lc) /\ form st c $"<" tc [x1; n] /\
    b = P ib (OList lb) /\ form st b $"setf" tb [x2; P ie (OList le)] /\
    form st (P ie (OList le)) $"+" te [x3; one] /\
    expr_sym x1 x /\ expr_sym x2 x /\ expr_sym x3 x /\ n = P jn (OVar vn) /\ is_int vn N /\ one = P jo (OVar vo) /\ is_int vo 1.
