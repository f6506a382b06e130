(** Vocabulary for statements about runs of the interpreter.  Nothing here models code. *)
Require Import String Ascii List ZArith Bool Lia.
Require Import PArith FMapPositive.
From Verif Require Import Base CppString Num Token Value State Builtins Eval LispTop.
Import ListNotations.

(** Runs without regard to the step budget of the model: some budget suffices. *)
Definition ends_with {A} (m : nat -> M A) (st : state) (o : out A) (st' : state) : Prop :=
  exists n, m n st = (o, st') /\ o <> NoFuel.

(** A script evaluated by Lisp::Eval, and by Lisp::SaveEval. *)
Definition runs (tracing onlyexpand : bool) (code modname : str) : state -> out result -> state -> Prop :=
  ends_with (fun n => eval_script n tracing onlyexpand code modname).
Definition saves (verbose tracing onlyexpand : bool) (code modname : str) : state -> out result -> state -> Prop :=
  ends_with (fun n => save_eval n verbose tracing onlyexpand code modname).
(** An expression evaluated in scope [s]; a function called from scope [s]. *)
Definition evals (p : ptr) (s : sid) : state -> out result -> state -> Prop :=
  ends_with (fun n => r_eval (run n) p s).
Definition calls (f : fnval) (args : list ptr) (s : sid) : state -> out result -> state -> Prop :=
  ends_with (fun n => r_call (run n) f args s).

(** The states between scripts run one after the other from a fresh interpreter, however the
    scripts ended (also if one was cut off in the middle, outcome NoFuel). *)
Inductive reachable : state -> Prop :=
| reach_init : forall inp files e, reachable (init_state inp files e)
| reach_eval : forall st n tr oe code modname,
    reachable st -> reachable (snd (eval_script n tr oe code modname st))
| reach_save : forall st n vb tr oe code modname,
    reachable st -> reachable (snd (save_eval n vb tr oe code modname st)).

Definition scope_at (st : state) (s : sid) : option scope := PositiveMap.find s (st_scopes st).
Definition vec_at (st : state) (l : loc) : option (list ptr) := PositiveMap.find l (st_vecs st).
Definition dict_at (st : state) (l : loc) : option dictv := PositiveMap.find l (st_dicts st).

(** Following [link] from scope [s] one arrives at a scope without a link, passing only
    existing scopes. *)
Inductive chain_ends (link : scope -> option sid) (st : state) : sid -> Prop :=
| ce_last : forall s sc, scope_at st s = Some sc -> link sc = None -> chain_ends link st s
| ce_more : forall s sc c, scope_at st s = Some sc -> link sc = Some c -> chain_ends link st c -> chain_ends link st s.

(** The value stored in a variant is of the kind its type says. *)
Definition tagged (st : state) (v : variant) : Prop :=
  match v_ty v with
  | TInt => exists z, v_val v = Some (OInt z) /\ (-2147483648 <= z <= 2147483647)%Z
  | TBool => exists b, v_val v = Some (OBool b)
  | TDouble => exists d, v_val v = Some (ODouble d)
  | TString | TSym | TError => exists t, v_val v = Some (OString t)
  | TList => exists l es, v_val v = Some (OList l) /\ vec_at st l = Some es
  | TFun => exists f, v_val v = Some (OFun f)
  | TNative => exists l d, v_val v = Some (ODict l) /\ dict_at st l = Some d
  | TLValue => exists lv, v_val v = Some (OLValue lv)
  | TNil | TUndef => True
  end.

(** A fresh interpreter without input and files. *)
Definition fresh : state := init_state [] [] (Env (fun _ => true) None []).
(** Scopes are numbered below the next free number. *)
Definition numbered (st : state) : Prop := forall s sc, scope_at st s = Some sc -> (s < st_nsid st)%positive.

(** Not one of the outcomes the model reserves for an endless scope chain, a dangling reference or a value
    of the wrong kind. *)
Definition healthy {A} (o : out A) : Prop :=
  o <> Undef UBScopeChain /\ o <> Undef UBBadPtr /\ o <> Undef UBTag.
(** The value is a variable, an element of a list or a key of a dictionary. *)
Definition stored (st : state) (v : variant) : Prop :=
  (exists s sc k i, scope_at st s = Some sc /\ In (k, P i (OVar v)) (s_vars sc)) \/
  (exists l es i, vec_at st l = Some es /\ In (P i (OVar v)) es) \/
  (exists l d o, dict_at st l = Some d /\ In (v, o) d).
(** Output only grows, input is only consumed, the environment stays. *)
Definition io_kept (st st' : state) : Prop :=
  (exists t, st_out st' = st_out st ++ t) /\ (exists l, st_in st = l ++ st_in st') /\ st_env st' = st_env st.
(** A text Format inserts as it is. *)
Definition fine_text (t : str) : Prop := ~ In "{"%char t /\ t <> $"##<NULL>##".
(** What the safe entry point writes for an error with a position. *)
Definition report_text (m : str) (i : errinfo) (verbose : bool) : str :=
  [c_nl] ++ $"Error executing script." ++ [c_nl; c_nl] ++ m ++ $" --> line=" ++ z_to_string (ei_line i) ++
  $" start=" ++ z_to_string (ei_start i) ++ $" stop=" ++ z_to_string (ei_stop i) ++ $" module=" ++ ei_module i ++ [c_nl] ++
  [c_nl] ++ $"Callstack:" ++ [c_nl] ++ ei_stack i ++ [c_nl] ++
  (if verbose then $"Exception in eval(): exc->ToString() " ++ [c_nl] ++ $"data=exc.Data" ++ [c_nl] else []).
(** Not an error with a position. *)
Definition not_positioned {A} (o : out A) : Prop := forall m i, o <> Throw (ELisp m i).
