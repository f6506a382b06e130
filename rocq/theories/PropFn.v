(** Property C84: functions made by functions. *)
Require Import String Ascii List ZArith Bool Lia.
Require Import PArith FMapPositive.
From Verif Require Import Base CppString Num Token Value State Builtins Eval LispTop SpecRun SpecVal SpecNum SpecList SpecForm SpecLang SpecClos SpecFn
  LangProofs FnProofs.
Import ListNotations.

(** ** C84: functions made by functions *)
Theorem C84_value : forall F st g s m ds fn xs body e vs rs m0 v o, world F st g -> view F st s g m -> written_in st fn ds xs body -> exp_at st body e -> surroundings F st ds g m0 ->
  length xs = length vs -> NoDup xs -> Forall (tidy F) xs -> vals_are st rs vs -> yields F (over (parameters_of xs vs) m0) e v o ->
  exists w st', calls fn rs s st (Val (Some w)) st' /\ val_is st' w v /\ keeps no_scope no_variable st st' /\ world F st' g /\ st_out st' = st_out st ++ o.
Proof. exact made_value. Qed.
Print Assumptions C84_value.
Theorem C84_sets : forall F st g s m ds fn xs body x e vs rs m0 v o q, world F st g -> view F st s g m -> written_in st fn ds xs body -> sets st body x e -> surroundings F st ds g m0 ->
  length xs = length vs -> NoDup xs -> Forall (tidy F) xs -> vals_are st rs vs -> yields F (over (parameters_of xs vs) m0) e v o ->
  tidy F x -> ~ In x xs -> var_at st ds x = Some q ->
  exists w st', calls fn rs s st (Val (Some w)) st' /\ val_is st' w v /\ (exists i, var_at st' ds x = Some (P i (OVar w))) /\
    keeps no_scope (the_variable ds x) st st' /\ world F st' g /\ st_out st' = st_out st ++ o.
Proof. exact made_sets. Qed.
Print Assumptions C84_sets.
Theorem C84_fn : forall nm st s sc p tok fp body xs, In nm [$"fn"; $"lambda"] -> form st p nm tok [fp; body] -> standard st s nm -> scope_at st s = Some sc -> plain fp -> plain body -> parameters st fp xs ->
  exists v fn, evals p s st (Val (Some v)) (noted st s tok) /\ is_fn v fn /\ fn_sp fn = false /\ written_in (noted st s tok) fn s xs body.
Proof. exact fn_makes. Qed.
Print Assumptions C84_fn.
Theorem C84_maker : forall F st g s m nm ds fn xs body vs rs m0 fp2 body2 ys e, world F st g -> view F st s g m -> written_in st fn ds xs body -> surroundings F st ds g m0 ->
  length xs = length vs -> NoDup xs -> Forall (tidy F) xs -> vals_are st rs vs -> (forall x, In x xs -> var_at st g x = None) ->
  makes_functions st g nm -> ~ In nm xs -> code_of st body nm [fp2; body2] -> parameters st fp2 ys -> plain fp2 -> exp_at st body2 e ->
  exists v fn2 c st', calls fn rs s st (Val (Some v)) st' /\ is_fn v fn2 /\ fn_sp fn2 = false /\ scope_at st c = None /\ written_in st' fn2 c ys body2 /\ exp_at st' body2 e /\
    surroundings F st' c g (over (parameters_of xs vs) m0) /\ keeps no_scope no_variable st st' /\ world F st' g /\ st_out st' = st_out st.
Proof. exact maker_makes. Qed.
Print Assumptions C84_maker.
Theorem C84_made_function : forall F st g s m nm ds fn xs body vs rs m0 fp2 body2 ys e us ps v o, world F st g -> view F st s g m -> written_in st fn ds xs body -> surroundings F st ds g m0 ->
  length xs = length vs -> NoDup xs -> Forall (tidy F) xs -> vals_are st rs vs -> (forall x, In x xs -> var_at st g x = None) ->
  makes_functions st g nm -> ~ In nm xs -> code_of st body nm [fp2; body2] -> parameters st fp2 ys -> plain fp2 -> exp_at st body2 e ->
  length ys = length us -> NoDup ys -> Forall (tidy F) ys -> vals_are st ps us -> yields F (over (parameters_of ys us) (over (parameters_of xs vs) m0)) e v o ->
  exists h fn2 st1 w st', calls fn rs s st (Val (Some h)) st1 /\ is_fn h fn2 /\ calls fn2 ps s st1 (Val (Some w)) st' /\ val_is st' w v /\ keeps no_scope no_variable st st' /\ st_out st' = st_out st ++ o.
Proof. exact made_function. Qed.
Print Assumptions C84_made_function.
Theorem C84_counters : forall F g s cs is zs bs zs', answers cs zs is bs zs' -> forall st, world F st g -> view F st s g empty_store -> NoDup (map home cs) ->
  (forall i c, nth_error cs i = Some c -> stands_at F st g c (zs i)) ->
  exists ws st', called cs s is st ws st' /\ Forall2 is_int ws bs /\ (forall i c, nth_error cs i = Some c -> stands_at F st' g c (zs' i)) /\ st_out st' = st_out st.
Proof. exact counters_count. Qed.
Print Assumptions C84_counters.
Theorem C84_hidden : forall F st g s m fn ds n k z q, world F st g -> view F st s g m -> counter F st fn ds n k -> g <> ds -> var_is st g n (NumV z) -> var_at st ds n = Some q -> fits (z + k) ->
  exists w st', calls fn [] s st (Val (Some w)) st' /\ is_int w (z + k) /\ var_is st' g n (NumV z) /\ (exists i, var_at st' ds n = Some (P i (OVar w))) /\
    keeps no_scope (the_variable ds n) st st' /\ world F st' g /\ st_out st' = st_out st.
Proof. exact counter_hidden. Qed.
Print Assumptions C84_hidden.
Theorem C84_global_refuted : exists code st' w, code = $"(do (defn adder (n) (lambda (x) (+ x n))) (def a (adder 1)) (def n 9) (a 5))" /\
  runs false false code $"main" (init_state [] [] (Env (fun _ => true) None [])) (Val (Some w)) st' /\ is_int w 14.
Proof. exact global_hides. Qed.
Print Assumptions C84_global_refuted.
Definition five : store := update empty_store $"n" (NumV 5).
Definition num (z : Z) : ptr := P 1 (OVar (MkVar TInt (Some (OInt z)) UnqNone None)).
Ltac sum_it := eapply yi_prim; [eapply ya_cons with (o1 := []); [apply yi_name; reflexivity|eapply ya_cons with (o1 := []); [apply yi_name; reflexivity|constructor]]|].
(** The function a was made by (adder 5); called with 7 it answers 12. *)
Example C84_value_ex : exists st fn ds body m0, reachable st /\ world no_funs st main_sid /\ view no_funs st main_sid main_sid empty_store /\ written_in st fn ds [$"x"] body /\
  exp_at st body (Prim $"+" [Name $"x"; Name $"n"]) /\ surroundings no_funs st ds main_sid m0 /\ vals_are st [num 7] [NumV 7] /\
  yields no_funs (over (parameters_of [$"x"] [NumV 7]) m0) (Prim $"+" [Name $"x"; Name $"n"]) (NumV 12) [].
Proof.
  destruct made_all as (st & R & W & V & M & NX & NN & _ & (fn & body & ds & _ & WR & EX & AS & (i & w & VA & VI)) & _).
  exists st, fn, ds, body, five. repeat (split; [assumption|]). split; [|split].
  - split; [exact AS|]. intros x v E. unfold five, update in E. destruct (list_eq_dec ascii_dec x $"n") as [-> |]; [|discriminate]. injection E as <-. split; [exact tidy_n|]. exists i, w. split; [apply ct_here; assumption|exact VI].
  - constructor; [constructor; [split; reflexivity|unfold fits; lia]|constructor].
  - sum_it. apply (pr_op Add 7 5), (cm_add 7 5). unfold fits; lia.
Qed.
(** The function c is a counter that stands at 0. *)
Example C84_sets_ex : exists st fn ds body q, reachable st /\ world no_funs st main_sid /\ view no_funs st main_sid main_sid empty_store /\ written_in st fn ds [] body /\
  sets st body $"n" (Prim $"+" [Name $"n"; Const (NumV 1)]) /\ surroundings no_funs st ds main_sid (update empty_store $"n" (NumV 0)) /\ var_at st ds $"n" = Some q /\
  yields no_funs (over (parameters_of [] []) (update empty_store $"n" (NumV 0))) (Prim $"+" [Name $"n"; Const (NumV 1)]) (NumV 1) [].
Proof.
  destruct made_all as (st & R & W & V & M & NX & NN & _ & _ & fn & ds & _ & _ & ((body & WR & SE) & _ & AS) & _ & _ & (i & w & VA & VI) & _).
  exists st, fn, ds, body, (P i (OVar w)). repeat (split; [assumption|]). split; [|split; [exact VA|]].
  - split; [exact AS|]. intros x v E. unfold update in E. destruct (list_eq_dec ascii_dec x $"n") as [-> |]; [|discriminate]. injection E as <-. split; [exact tidy_n|]. exists i, w. split; [apply ct_here; assumption|exact VI].
  - eapply yi_prim; [eapply ya_cons with (o1 := []); [apply yi_name; reflexivity|eapply ya_cons with (o1 := []); [apply yi_const|constructor]]|]. apply (pr_op Add 0 1), (cm_add 0 1). unfold fits; lia.
Qed.
(** The code (lambda (x) (+ x n)) of the function adder. *)
Example C84_fn_ex : exists st sc p tok q b, reachable st /\ form st p $"lambda" tok [q; b] /\ standard st main_sid $"lambda" /\ scope_at st main_sid = Some sc /\ plain q /\ plain b /\ parameters st q [$"x"].
Proof.
  destruct made_all as (st & R & W & ((sc & H & G & _) & _) & (_ & NM & i & v & f & VA & FV & BF) & _ & _ & (fn & p & q & b & _ & _ & CO & PA & PL & EX) & _).
  destruct (code_form _ _ _ _ CO) as (tok & FO). exists st, sc, p, tok, q, b. split; [exact R|]. split; [exact FO|]. split; [|split; [exact H|split; [exact PL|split; [eapply exp_plain; exact EX|exact PA]]]].
  pose proof W as (_ & _ & (gs & GS & T) & _). exists f. split; [exact BF|]. exists sc, gs, i, v. rewrite G. split; [exact H|]. split; [exact GS|]. split; [exact T|]. split; [exact NM|]. split; [|exact FV]. apply se_own; [exists sc; exact H|exact VA].
Qed.
(** (adder 3) makes a function that answers 7 for 4. *)
Example C84_maker_ex : exists st fn body q b, reachable st /\ world no_funs st main_sid /\ view no_funs st main_sid main_sid empty_store /\ written_in st fn main_sid [$"n"] body /\
  surroundings no_funs st main_sid main_sid empty_store /\ vals_are st [num 3] [NumV 3] /\ Forall (tidy no_funs) [$"n"] /\ (forall x, In x [$"n"] -> var_at st main_sid x = None) /\
  makes_functions st main_sid $"lambda" /\ ~ In $"lambda" [$"n"] /\ code_of st body $"lambda" [q; b] /\ parameters st q [$"x"] /\ plain q /\ exp_at st b (Prim $"+" [Name $"x"; Name $"n"]) /\
  vals_are st [num 4] [NumV 4] /\ Forall (tidy no_funs) [$"x"] /\
  yields no_funs (over (parameters_of [$"x"] [NumV 4]) (over (parameters_of [$"n"] [NumV 3]) empty_store)) (Prim $"+" [Name $"x"; Name $"n"]) (NumV 7) [].
Proof.
  destruct made_all as (st & R & W & V & M & NX & NN & (fn & body & q & b & _ & WR & CO & PA & PL & EX) & _).
  assert (NU : forall z, fits z -> vals_are st [num z] [NumV z]) by (intros z FZ; constructor; [constructor; [split; reflexivity|exact FZ]|constructor]).
  exists st, fn, body, q, b. repeat (split; [assumption|]). split; [split; [destruct V as ((sc & H & _ & NL) & _); exists sc; split; assumption|intros x v E; discriminate E]|]. split; [apply NU; unfold fits; lia|].
  split; [constructor; [exact tidy_n|constructor]|]. split; [intros x [<- |[]]; exact NN|]. split; [exact M|]. split; [vm_compute; intuition discriminate|]. repeat (split; [assumption|]). split; [apply NU; unfold fits; lia|].
  split; [constructor; [exact tidy_x|constructor]|]. sum_it. apply (pr_op Add 4 3), (cm_add 4 3). unfold fits; lia.
Qed.
(** Two counters at 0 and 10; called in the order c c d c they answer 1 2 11 3. *)
Example C84_counters_ex : exists st cs zs', reachable st /\ world no_funs st main_sid /\ view no_funs st main_sid main_sid empty_store /\ NoDup (map home cs) /\
  (forall i c, nth_error cs i = Some c -> stands_at no_funs st main_sid c (nth i [0; 10]%Z 0%Z)) /\ length cs = 2%nat /\
  answers cs (fun i => nth i [0; 10]%Z 0%Z) [0; 0; 1; 0]%nat [1; 2; 11; 3]%Z zs'.
Proof.
  destruct made_all as (st & R & W & V & M & NX & NN & _ & _ & fc & dc & fd & dd & C1 & C2 & NE & V1 & V2).
  eexists st, [(fc, dc, $"n", 1%Z); (fd, dd, $"n", 1%Z)], _. split; [exact R|]. split; [exact W|]. split; [exact V|]. split; [|split; [|split; [reflexivity|]]].
  - cbn [map home]. constructor; [intros [Q|[]]; apply NE; congruence|]. constructor; [intros []|constructor].
  - intros [|[|[|i]]] c E; cbn in E; try discriminate; injection E as <-; (split; [assumption|]; split; [exact NN|assumption]).
  - do 4 (eapply answers_step; [reflexivity|reflexivity|unfold fits; lia|]). apply an_end.
Qed.
(** The same counter after (def n 100). *)
Example C84_hidden_ex : exists st fc dc q, reachable st /\ world no_funs st main_sid /\ view no_funs st main_sid main_sid empty_store /\ counter no_funs st fc dc $"n" 1 /\ main_sid <> dc /\
  var_is st main_sid $"n" (NumV 100) /\ var_at st dc $"n" = Some q /\ fits (100 + 1).
Proof.
  destruct hidden_all as (st & fc & dc & R & W & V & C & N & VG & (i & w & VA & _)). exists st, fc, dc, (P i (OVar w)). repeat (split; [assumption|]). unfold fits; lia.
Qed.
