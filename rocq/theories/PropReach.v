(** Property C80: what a piece of code can change. *)
Require Import String Ascii List ZArith Bool Lia.
Require Import PArith FMapPositive.
From Verif Require Import Base CppString Num Token Value State Builtins Eval LispTop SpecRun SpecVal SpecForm SpecReach ErrProofs ReachProofs.
Import ListNotations.

(** ** C80: code changes only what it can reach *)
Theorem C80_sound : forall st, reachable st -> sound st /\ exists_in st (NScope main_sid).
Proof. exact reachable_sound. Qed.
Print Assumptions C80_sound.
Theorem C80_eval : forall st p s o st', sound st -> exists_in st (NScope s) -> ptr_valid st p -> evals p s st o st' ->
  confined st (roots_eval p s) o st'.
Proof. exact eval_confined. Qed.
Print Assumptions C80_eval.
Theorem C80_call : forall st f args ls sc o st', sound st -> closure_fn f -> scope_at st ls = Some sc ->
  valid st (OFun f) -> (forall p, In p args -> ptr_valid st p) -> calls f args ls st o st' -> confined st (roots_call f args (s_global sc)) o st'.
Proof. exact call_confined. Qed.
Print Assumptions C80_call.
Theorem C80_aside_eval : forall st S p s o st', sound st -> closed_off st S -> exists_in st (NScope s) -> ~ S (NScope s) ->
  ptr_valid st p -> (forall n, ptr_names p n -> ~ S n) -> evals p s st o st' -> kept_aside st S o st'.
Proof. exact aside_eval. Qed.
Print Assumptions C80_aside_eval.
Theorem C80_aside_call : forall st S f args ls sc o st', sound st -> closed_off st S -> closure_fn f ->
  scope_at st ls = Some sc -> ~ S (NScope (s_global sc)) ->
  valid st (OFun f) -> (forall n, names (OFun f) n -> ~ S n) ->
  (forall p, In p args -> ptr_valid st p /\ forall n, ptr_names p n -> ~ S n) -> calls f args ls st o st' -> kept_aside st S o st'.
Proof. exact aside_call. Qed.
Print Assumptions C80_aside_call.
Theorem C80_locals : forall st f args ls sc o st', sound st -> closed_off st (eq (NScope ls)) -> closure_fn f ->
  scope_at st ls = Some sc -> s_global sc <> ls -> valid st (OFun f) -> ~ names (OFun f) (NScope ls) ->
  (forall p, In p args -> ptr_valid st p /\ ~ ptr_names p (NScope ls)) -> calls f args ls st o st' ->
  (forall n, var_at st' ls n = var_at st ls n) /\ sound st' /\ closed_off st' (eq (NScope ls)) /\ ~ roots_result o (NScope ls).
Proof. exact locals_kept. Qed.
Print Assumptions C80_locals.
Theorem C80_healthy : forall st p s o st', sound st -> exists_in st (NScope s) -> ptr_valid st p -> evals p s st o st' -> healthy o.
Proof. exact eval_healthy. Qed.
Print Assumptions C80_healthy.
Theorem C80_local_refuted : exists v st', runs false false $"(defn f () (do (def x 1) (def h (lambda () (setf x 2))) (h) (+ x 0))) (f)" [] fresh (Val (Some v)) st' /\ is_int v 2.
Proof. exact local_changed. Qed.
Print Assumptions C80_local_refuted.
Theorem C80_list_refuted : exists v st', runs false false $"(defn g (l) (push 9 l)) (defn f () (do (def l (list 1)) (g l) (str l))) (f)" [] fresh (Val (Some v)) st' /\ is_str v $"(9 1)".
Proof. exact list_changed. Qed.
Print Assumptions C80_list_refuted.
Example C80_ex : let ls := st_nsid defd_st in let a := P 2 (OVar (mkv TInt (OInt 5))) in
  sound aside_st /\ closed_off aside_st (eq (NScope ls)) /\ closure_fn defd_fn /\
  (exists sc, scope_at aside_st ls = Some sc /\ s_global sc <> ls) /\ var_at aside_st ls $"n" = Some (P 1 (OVar (mkv TInt (OInt 7)))) /\
  valid aside_st (OFun defd_fn) /\ ~ names (OFun defd_fn) (NScope ls) /\
  (forall p, In p [a] -> ptr_valid aside_st p /\ ~ ptr_names p (NScope ls)) /\
  exists v st', calls defd_fn [a] ls aside_st (Val (Some v)) st' /\ is_int v 6.
Proof.
  cbv zeta. destruct aside_ready as (A1 & A2 & A3). destruct defd_valid as (D1 & D2).
  split; [exact A1|]. split; [exact A2|]. split; [vm_compute; exact I|]. split; [exists local_scope; split; [exact A3|vm_compute; discriminate]|].
  split; [unfold var_at; rewrite A3; reflexivity|]. split; [exact D1|]. split; [exact D2|]. split.
  - intros p [<-|[]]. split; [apply valid_int; lia|]. intros (q & Q & R). inversion Q as [|? ? ? ? ? Q'| | | |]; subst; [inversion R|]. inversion Q'; subst. inversion R.
  - eexists. eexists. split; [apply (calls_by 20); [vm_compute; reflexivity|discriminate]|]. split; reflexivity.
Qed.
