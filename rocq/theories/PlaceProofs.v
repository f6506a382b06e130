(** The place an error names. *)
Require Import String Ascii List ZArith Bool Lia.
Require Import PArith FMapPositive.
From Verif Require Import Base CppString Num Token Value State Show ScopeOps Builtins Table Eval LispTop SpecLex SpecParse SpecRun SpecVal SpecNum SpecList SpecForm SpecText SpecIo SpecMix SpecShow SpecPlace.
From Verif Require Import Wf RunProofs TextProofs StrProofs BuiltinProofs ListProofs NumProofs ErrProofs FormProofs IoProofs MixProofs SmallProofs ShowProofs.
Import ListNotations.

Lemma position_is : forall t m x, position_of (ErrInfo (tok_line t) (tok_start t) (tok_stop t) m x) t.
Proof. intros [k|] m x; repeat split. Qed.
Lemma line_is : forall sc, exists l, line_text sc l.
Proof. intro sc. destruct (s_token sc) as [k|] eqn:T; eexists; [left; exists k; split; [exact T|reflexivity]|right; split; [exact T|reflexivity]]. Qed.
Lemma printable_stack : forall st s, printable st s -> fine_frames st s /\ exists d t, stack_text st 0 s d t.
Proof.
  intros st s H. induction H as [s sc H P F1 F2|s sc c H P L F1 F2 _ (FF & d & t & IH)]; destruct (line_is sc) as (l & LT).
  - split; [eapply ff_one; eassumption|]. do 2 eexists. eapply sk_one; eassumption.
  - split; [eapply ff_more; eassumption|]. do 2 eexists. eapply sk_more; eassumption.
Qed.
Lemma unmarked_line : forall i sc, (0 < i)%Z -> stack_line None i sc = stack_line (Some 0%Z) i sc.
Proof. intros i sc L. unfold stack_line. destruct (Z.eqb_spec 0 i); [lia|reflexivity]. Qed.
Lemma unmarked : forall scs acc, dump_lines None scs acc = dump_lines (Some 0%Z) scs acc.
Proof.
  induction scs as [|sc scs IH]; intro acc; [reflexivity|]. cbn [dump_lines]. rewrite unmarked_line by (cbn [length]; lia). destruct (stack_line (Some 0%Z) _ sc) as [l| | | |]; try reflexivity. cbn [obind]. apply IH.
Qed.
Lemma throw_scope_at : forall A m st s, printable st s -> exists i, throw_scope (A := A) m s st = (Throw (ELisp m i), st) /\ names_place st s i.
Proof.
  intros A m st s H. destruct (printable_stack st s H) as (FF & d & t & ST). destruct (dump_is st 0 s d t ST FF _ (Nat.le_refl _)) as (scs & ES & _ & DL). destruct (printable_at _ _ H) as (sc & X).
  assert (DS : dump_stack None s st = Val t). { unfold dump_stack, call_stack. rewrite ES. cbn [obind]. rewrite unmarked, DL, app_nil_r. reflexivity. }
  eexists. unfold throw_scope, bind, reads, scope_exn. rewrite DS. cbn [obind]. rewrite (get_at _ _ _ X). cbn [obind]. split; [reflexivity|].
  exists sc. split; [exact X|]. split; [reflexivity|]. split; [apply position_is|]. exists d. exact ST.
Qed.
(** The errors of [throw_scope] are those of the theorems that only say there is one. *)
Lemma same_place : forall A m st s i, printable st s -> throw_scope (A := A) m s st = (Throw (ELisp m i), st) -> names_place st s i.
Proof. intros A m st s i H E. destruct (throw_scope_at A m st s H) as (i' & E' & N). rewrite E in E'. injection E' as <-. exact N. Qed.

(** ** Numbers of arguments *)
Lemma arity_at : forall shown n args s st, fine_text shown -> length args <> n -> printable st s ->
  exists i, names_place st s i /\ forall B (k : M B), bind (check_args shown (Some n) args s) (fun _ => k) st = (Throw (ELisp (miscounted shown (length args) (count_text n)) i), st).
Proof.
  intros shown n args s st F L P. destruct (throw_scope_at unit (miscounted shown (length args) (count_text n)) st s P) as (i & T & N). exists i. split; [exact N|]. intros B k.
  unfold check_args. destruct (Nat.eqb_spec (length args) n) as [E|_]; [congruence|]. cbn [negb]. unfold bind, lift. 
  pose proof (arity_text shown (length args) (count_text n) F (count_fine n)) as E. unfold count_text in E at 1. rewrite E, T. reflexivity.
Qed.
Lemma fixed_at : Forall (fun x => exists b, builtin_code (fst x) = Some b /\
   forall R args s st, length args <> snd (snd x) -> printable st s ->
   exists i, names_place st s i /\ call_builtin R b args s st = (Throw (ELisp (miscounted (fst (snd x)) (length args) (count_text (snd (snd x)))) i), st)) fixed_arity.
Proof.
  repeat (apply Forall_cons; [|]); [..|apply Forall_nil]; cbn [fst snd]; eexists; (split; [vm_compute; reflexivity|]); intros R args s st L Pr;
  match goal with |- exists i, _ /\ _ = (Throw (ELisp (miscounted ?sh _ (count_text ?n)) _), _) => destruct (arity_at sh n args s st ltac:(split; [cbn; intuition discriminate|discriminate]) L Pr) as (i & N & E); exists i; (split; [exact N|]) end;
  cbn [call_builtin]; to_bind; try (apply E).
  destruct (printable_at _ _ Pr) as (sc & X). unfold global_of, bind at 1, bind at 1, reads at 1. rewrite (get_at _ _ _ X). unfold def_helper. apply E.
Qed.
Theorem arity_place : forall name shown n args s st, In (name, (shown, n)) fixed_arity -> length args <> n -> printable st s ->
  exists i, builtin_call name args s st (Throw (ELisp (miscounted shown (length args) (count_text n)) i)) st /\ names_place st s i.
Proof.
  intros name shown n args s st I L Pr. pose proof fixed_at as F. rewrite Forall_forall in F. destruct (F _ I) as (b & C & K). cbn [fst snd] in *.
  destruct (K (run 0) args s st L Pr) as (i & N & E). exists i. split; [|exact N]. apply (builtin_calls 0 name b); [exact C|exact E|discriminate].
Qed.
Lemma noted_printable : forall st s tok, printable st s -> forall u, printable st u -> printable (noted st s tok) u.
Proof.
  intros st s tok PS u H. destruct tok as [k|]; [|exact H]. destruct (printable_at _ _ PS) as (sc0 & X0).
  induction H as [u sc H P F1 F2|u sc c H P L F1 F2 _ IH].
  - pose proof (noted_scope st s (Some k) u) as Q. rewrite H in Q. destruct (Pos.eqb_spec u s) as [-> |]; [rewrite X0 in H; injection H as ->|]; (eapply pr_last; [exact Q| | |]); assumption.
  - pose proof (noted_scope st s (Some k) u) as Q. rewrite H in Q. destruct (Pos.eqb_spec u s) as [-> |]; [rewrite X0 in H; injection H as ->|]; (eapply pr_more; [exact Q| | | | |]); eassumption.
Qed.
Theorem form_place : forall name shown n st s p k args, In (name, (shown, n)) fixed_arity -> option_map fn_sp (builtin_fn name) = Some true -> form st p name (Some k) args -> standard st s name -> Forall plain args ->
  length args <> n -> printable st s ->
  exists i sc st', evals p s st (Throw (ELisp (miscounted shown (length args) (count_text n)) i)) st' /\ scope_at st s = Some sc /\ ei_module i = s_module sc /\ position_of i (Some k) /\ exists d, stack_text st' 0 s d (ei_stack i).
Proof.
  intros name shown n st s p k args I SP F S PL L PR. pose proof (noted_printable st s (Some k) PR s PR) as PR2. pose proof fixed_at as FX. rewrite Forall_forall in FX. destruct (FX _ I) as (b & C & K). cbn [fst snd] in *.
  destruct (K (run 0) args s (noted st s (Some k)) L PR2) as (i & (sc2 & X2 & MO & PO & SX) & E). destruct (printable_at _ _ PR) as (sc & X).
  pose proof (noted_scope st s (Some k) s) as Q. rewrite X, Pos.eqb_refl, X2 in Q. injection Q as ->. exists i, sc, (noted st s (Some k)). split; [|split; [exact X|split; [exact MO|split; [exact PO|exact SX]]]].
  apply (special_builtin _ _ _ _ _ _ b F S C SP PL). exists 0%nat. split; [exact E|discriminate].
Qed.
(** ** Assignment to a name without a variable *)
Lemma place_nid : forall st n s i, names_place (with_nid n st) s i -> names_place st s i.
Proof.
  intros st n s i (sc & X & MO & PO & d & ST). exists sc. split; [exact X|]. split; [exact MO|]. split; [exact PO|]. exists d. exact (stack_same (with_nid n st) st 0 s d _ eq_refl ST).
Qed.
Theorem unbound_place : forall st s p tok a0 a1 name v st1, form st p $"setf" tok [a0; a1] -> standard st s $"setf" -> expr_sym a0 name -> name <> [] -> plain a1 ->
  evals a1 s (noted st s tok) (Val (Some v)) st1 -> unassignable st1 s name -> printable st1 s ->
  exists i st', evals p s st (Throw (ELisp ($"Symbol " ++ name ++ $" not found") i)) st' /\ same_data st1 st' /\ names_place st1 s i.
Proof.
  intros st s p tok a0 a1 name v st1 F S X NE PL E (sc & H & V & EN & XG & G) PR.
  set (st2 := with_nid (Pos.succ (st_nid st1)) st1). assert (PR2 : printable st2 s) by (exact (like_printable st1 st2 eq_refl s PR)).
  destruct (throw_scope_at unit ($"Symbol " ++ name ++ $" not found") st2 s PR2) as (i & T & N). exists i, st2. split; [|split; [apply same_nid|exact (place_nid _ _ _ _ N)]].
  eapply mono_setf_tail; try eassumption; [|discriminate]. unfold bind at 1. fold st2.
  assert (K : set_in_scopes s name (P (st_nid st1) (OVar v)) st2 = throw_scope ($"Symbol " ++ name ++ $" not found") s st2).
  { unfold set_in_scopes. destruct name as [|c0 name']; [congruence|]. unfold bind, reads.
    assert (H' : scope_at st2 s = Some sc) by exact H. rewrite find_var by (eapply exists_at; exact H'). change (var_at st2 s) with (var_at st1 s). rewrite V.
    rewrite (chain_ok _ _ _ _ (like_enclosing _ st2 _ _ _ (like_nid _ _) EN)). rewrite (get_at _ _ _ H'). rewrite find_var by exact XG.
    change (var_at st2 (s_global sc)) with (var_at st1 (s_global sc)). rewrite G. reflexivity. }
  rewrite K, T. reflexivity.
Qed.
(** ** A statement of a block without brackets *)
Lemma do_app : forall s before r st r1 st1, in_sequence s before r st r1 st1 -> (before = [] \/ leaving st1 s false) -> forall rest,
  exists k, forall m, (k <= m)%nat -> do_loop (run m) (before ++ rest) s r st = do_loop (run m) rest s r1 st1.
Proof.
  intros s before r st r1 st1 H. induction H as [r st|i l ps r st r1 st1 r2 st2 (k & E & N) (sc & H & IR) SQ IH|i l ps r st r1 st1 (k & E & N) (sc & H & IR)]; intros Q rest.
  - exists 0%nat. reflexivity.
  - destruct (IH) with (rest := rest) as (k2 & D).
    { destruct Q as [Q|Q]; [discriminate|right; exact Q]. }
    exists (Nat.max k k2). intros m L. cbn [app do_loop]. unfold bind, lift. cbn [deref obj_is_list]. rewrite (ends_at _ _ _ _ _ _ m (mono_eval _ _) E N) by lia.
    unfold reads. rewrite (get_at _ _ _ H), IR. apply D. lia.
  - destruct Q as [Q|(sc' & Q & IR')]; [discriminate|]. congruence.
Qed.
Theorem item_place : forall st s p name tok before i v rest r st1, In name [$"do"; $"begin"] -> form st p name tok (before ++ P i (OVar v) :: rest) -> standard st s name -> Forall plain (before ++ P i (OVar v) :: rest) ->
  in_sequence s before (Some vundef) (noted st s tok) r st1 -> (before = [] \/ leaving st1 s false) -> printable st1 s ->
  exists e sc d, evals p s st (Throw (ELisp $"List expected in do" e)) st1 /\ scope_at st1 s = Some sc /\ ei_module e = s_module sc /\ position_of e (v_tok v) /\ stack_text st1 0 s d (ei_stack e).
Proof.
  intros st s p name tok before i v rest r st1 I F S PL SQ NR PR. destruct (printable_stack _ s PR) as (FF & d & t & ST). destruct (dump_is _ 0 s d t ST FF _ (Nat.le_refl _)) as (scs & ES & _ & DL).
  assert (DS : dump_stack None s st1 = Val t). { unfold dump_stack, call_stack. rewrite ES. cbn [obind]. rewrite unmarked, DL, app_nil_r. reflexivity. }
  destruct (printable_at _ _ PR) as (sc & X).
  exists (ErrInfo (tok_line (v_tok v)) (tok_start (v_tok v)) (tok_stop (v_tok v)) (s_module sc) t), sc, d. split; [|split; [exact X|split; [reflexivity|split; [apply position_is|exact ST]]]].
  destruct (do_app _ _ _ _ _ _ SQ NR (P i (OVar v) :: rest)) as (k & D).
  assert (R : call_builtin (run k) BDo (before ++ P i (OVar v) :: rest) s (noted st s tok) = (Throw (ELisp $"List expected in do" (ErrInfo (tok_line (v_tok v)) (tok_start (v_tok v)) (tok_stop (v_tok v)) (s_module sc) t)), st1)).
  { cbn [call_builtin]. unfold b_do. rewrite (D k (Nat.le_refl _)). cbn [do_loop]. unfold bind at 1, lift at 1. cbn [deref obj_is_list vref_obj]. unfold throw_token, bind, reads. rewrite DS, (get_at _ _ _ X). reflexivity. }
  destruct I as [<-|[<-|[]]]; (apply (special_builtin _ _ _ _ _ _ BDo F S); [vm_compute; reflexivity|vm_compute; reflexivity|exact PL|]; exists k; split; [exact R|discriminate]).
Qed.
(** ** Cases for the theorems *)
Definition tok_at (a b l : Z) : token := Token TkSymbol (TvStr []) a b l.
Definition place_st : state := with_code [(90%positive, [P 71 (OVar (MkVar TSym (Some (OString $"def")) UnqNone (Some (tok_at 13 16 2)))); sym_ 72 $"x"]);
  (91%positive, [sym_ 71 $"do"; code_ 73 78; P 72 (OVar (MkVar TInt (Some (OInt 5)) UnqNone (Some (tok_at 16 17 2))))])] code_st.
Lemma place_printable : printable place_st main_sid.
Proof. destruct (main_scope place_st) as (PR & _); [vm_compute; repeat split; try discriminate; intuition discriminate|exact PR]. Qed.
Lemma ex_form : In ($"def", ($"def", 2%nat)) fixed_arity /\ option_map fn_sp (builtin_fn $"def") = Some true /\ form place_st (code_ 1 90) $"def" (Some (tok_at 13 16 2)) [sym_ 72 $"x"] /\ standard place_st main_sid $"def" /\
  Forall plain [sym_ 72 $"x"] /\ length [sym_ 72 $"x"] <> 2%nat /\ printable place_st main_sid.
Proof.
  split; [vm_compute; tauto|]. split; [vm_compute; reflexivity|]. split; [eexists; eexists; split; [left; exists 1%positive, 90%positive; split; [reflexivity|vm_compute; reflexivity]|repeat split]|].
  split; [apply std_main; vm_compute; repeat split; reflexivity|]. split; [constructor; [right; split; discriminate|constructor]|]. split; [discriminate|exact place_printable].
Qed.
Lemma ex_item : exists v r st1, form place_st (code_ 1 91) $"do" None ([code_ 73 78] ++ [P 72 (OVar v)]) /\ v_tok v = Some (tok_at 16 17 2) /\ standard place_st main_sid $"do" /\ Forall plain ([code_ 73 78] ++ [P 72 (OVar v)]) /\
  in_sequence main_sid [code_ 73 78] (Some vundef) (noted place_st main_sid None) r st1 /\ leaving st1 main_sid false /\ printable st1 main_sid.
Proof.
  exists (MkVar TInt (Some (OInt 5)) UnqNone (Some (tok_at 16 17 2))), (Some (vint 1)), (snd (r_eval (run 20) (code_ 73 78) main_sid place_st)). split; [apply (form_by _ _ _ 71); vm_compute; reflexivity|]. split; [reflexivity|].
  split; [apply std_main; vm_compute; repeat split; reflexivity|]. split; [constructor; [exact I|constructor; [right; split; discriminate|constructor]]|].
  assert (LV : leaving (snd (r_eval (run 20) (code_ 73 78) main_sid place_st)) main_sid false) by (eexists; split; [vm_compute; reflexivity|reflexivity]).
  split; [|split; [exact LV|]].
  - apply sq_next with (r1 := Some (vint 1)) (st1 := snd (r_eval (run 20) (code_ 73 78) main_sid place_st)); [apply (evals_by 20); [vm_compute; reflexivity|discriminate]|exact LV|constructor].
  - apply main_scope. vm_compute. repeat split; try discriminate; intuition discriminate.
Qed.
Lemma ex_unbound : form code_st (code_ 1 82) $"setf" None [sym_ 72 $"unbound"; int_ 73 3] /\ standard code_st main_sid $"setf" /\ expr_sym (sym_ 72 $"unbound") $"unbound" /\ plain (int_ 73 3) /\
  (exists v st1, evals (int_ 73 3) main_sid (noted code_st main_sid None) (Val (Some v)) st1 /\ unassignable st1 main_sid $"unbound" /\ printable st1 main_sid).
Proof.
  split; [apply (form_by _ _ _ 71); vm_compute; reflexivity|]. split; [apply std_main; vm_compute; repeat split; reflexivity|]. split; [exists 72%positive; eexists; repeat split|]. split; [right; split; discriminate|].
  exists (vint 3), code_st. split; [apply (evals_by 20); [vm_compute; reflexivity|discriminate]|].
  destruct (main_scope code_st) as (PR & UN & _); [vm_compute; repeat split; try discriminate; intuition discriminate|]. split; [apply UN; vm_compute; reflexivity|exact PR].
Qed.
Lemma ex_texts : forall t m a b, In (t, m, a, b) [($"(setf x 5)", $"Symbol x not found", 13%Z, 17%Z); ($"(def x)", $"Bad argument count in def, has 1 expected 2", 13%Z, 16%Z); ($"(do 5)", $"List expected in do", 16%Z, 17%Z)] ->
  exists i st', runs false false ($"(def y 1)" ++ [c_nl] ++ $"  " ++ t) $"main" fresh (Throw (ELisp m i)) st' /\ ei_line i = 2%Z /\ ei_start i = a /\ ei_stop i = b /\ ei_module i = $"main" /\
    ei_stack i = $"       1 name=<main>                              lineno=2    module=main" ++ [c_nl].
Proof.
  intros t m a b [I|[I|[I|[]]]]; injection I as <- <- <- <-; eexists; eexists; (split; [apply (runs_by 40); [vm_compute; reflexivity|discriminate]|repeat split]).
Qed.
