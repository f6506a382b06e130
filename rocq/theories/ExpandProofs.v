(** Expansion of the macros of a script before it is run. *)
Require Import String Ascii List ZArith Bool Lia.
Require Import PArith FMapPositive.
From Verif Require Import Base CppString Num Token Tokenizer Parser Value State Show Builtins Eval LispTop SpecLex SpecParse SpecRun SpecVal SpecNum SpecList SpecForm SpecMacro SpecRead SpecExpand
  FuelProofs LexProofs ParseProofs RunProofs ErrProofs ListProofs FormProofs CalcProofs ClosProofs MacroProofs QuoteProofs ReadProofs.
Import ListNotations.

Lemma script_until : forall R st sc tr oe modname code ts tree p1 st1 p2 st2, scope_at st main_sid = Some sc ->
  tokenize (decorate code) 4 = Val ts -> parse_toplevel modname ts = Val tree -> load_tree tree (entered st tr modname ts) = (Val p1, st1) ->
  copy_ptr p1 st1 = (Val p2, st2) ->
  lisp_eval R tr oe code main_sid modname st =
    (let! ep := r_expand R p2 main_sid in let! xp := copy_ptr ep in if oe then let! v := lift (var_of_ptr xp) in some v else r_eval R xp main_sid) st2.
Proof.
  intros R st sc tr oe modname code ts tree p1 st1 p2 st2 SC TE PE LE C1. unfold lisp_eval. rewrite (mod_main _ _ _ _ _ SC).
  rewrite (mod_main _ (set_module modname sc)) by (unfold scope_at; cbn [st_scopes with_scopes]; rewrite find_add, Pos.eqb_refl; reflexivity).
  rewrite (bind_val _ _ (lift (tokenize (decorate code) 4)) _ _ ts _) by (unfold lift; rewrite TE; reflexivity).
  etransitivity; [exact (set_entered st sc tr modname ts _ _ SC)|].
  rewrite (bind_val _ _ (lift (parse_toplevel modname ts)) _ _ tree _) by (unfold lift; rewrite PE; reflexivity).
  rewrite (bind_val _ _ _ _ _ _ _ LE), (bind_val _ _ _ _ _ _ _ C1). reflexivity.
Qed.
Lemma entered_out : forall st tr m ts, st_out (entered st tr m ts) = st_out st.
Proof. intros st tr m ts. unfold entered. destruct (scope_at st main_sid); reflexivity. Qed.

Lemma script_stages : forall st tr modname s l ks, heap_numbered st -> scope_exists st main_sid -> src_ok s -> src_kinds s ks -> writes_all l ks ->
  exists ts t p st1, kinds_of (Val ts) = Val (open_kind :: ((TkSymbol, TvStr $"do") :: ks) ++ [close_kind]) /\
    read_as (script_datum l) t /\ code_at st1 p t /\ only_adds (entered st tr modname ts) st1 /\ heap_numbered st1 /\
    (forall i m es st2, expands p main_sid st1 (Val (P i (OList m))) st2 -> vec_at st2 m = Some es ->
       exists j v m' st3, is_list_at st3 v m' es /\ runs tr true (src_text s) modname st (Val (Some v)) st3 /\ (heap_numbered st2 -> only_adds st2 st3 /\ heap_numbered st3) /\
         forall o st', runs tr false (src_text s) modname st o st' <-> evals (P j (OList m')) main_sid st3 o st') /\
    (forall e oe st2, expands p main_sid st1 (Throw e) st2 -> runs tr oe (src_text s) modname st (Throw e) st2) /\
    (forall u oe st2, expands p main_sid st1 (Undef u) st2 -> runs tr oe (src_text s) modname st (Undef u) st2).
Proof.
  intros st tr modname s l ks HN (sc & SC) OK KS W.
  assert (KF := framed_kinds s ks KS). assert (WF : writes (EList (EAtom (TkSymbol, TvStr $"do") :: l)) (open_kind :: ((TkSymbol, TvStr $"do") :: ks) ++ [close_kind])).
  { apply w_list. change ((TkSymbol, TvStr $"do") :: ks) with ([(TkSymbol, TvStr $"do")] ++ ks). apply ws_cons; [apply w_atom; reflexivity|exact W]. }
  assert (TK := source_kinds 4 (framed s) _ (framed_ok s OK) KF).
  destruct (parse_source_list modname 4 (framed s) (EAtom (TkSymbol, TvStr $"do") :: l) [] (open_kind :: ((TkSymbol, TvStr $"do") :: ks) ++ [close_kind]) [] (framed_ok s OK)) as (tree & PE & ER); [rewrite app_nil_r; exact KF|exact WF|reflexivity|reflexivity|].
  rewrite framed_text in TK, PE. destruct (parse_split _ _ _ _ PE) as (ts & TE & PT). rewrite TE in TK.
  assert (DO : datum_ok (erase tree)). { rewrite ER. apply (proj1 writes_ok _ _ WF). eapply kinds_meant, KF. }
  set (st0 := entered st tr modname ts). assert (H0 : heap_numbered st0) by (apply entered_heap, HN).
  destruct (load_code tree st0 H0 DO) as (i & o & t & st1 & LE & C1 & RD & A1 & H1). rewrite ER in RD.
  change (datum_of (EList (EAtom (TkSymbol, TvStr $"do") :: l))) with (script_datum l) in RD.
  inversion RD as [|ds ts' RS]; subst. inversion C1 as [|i' l' ps ? VE CS]; subst.
  destruct (adds_list ps st1 H1) as (A2 & H2 & V2). set (st2 := with_nid (Pos.succ (st_nid st1)) (more_vec ps st1)) in *.
  assert (C2 : code_at st2 (P (st_nid st1) (OList (st_nloc st1))) (CList ts')) by (eapply ca_list; [exact V2|eapply forall2_adds; [exact A2|exact CS]]).
  assert (A02 := adds_trans _ _ _ A1 A2).
  assert (UN := fun n oe => script_until (run n) st sc tr oe modname _ ts tree _ _ _ _ SC TE PT LE (copied _ _ _ _ VE)). fold st2 in UN.
  exists ts, (CList ts'), (P (st_nid st1) (OList (st_nloc st1))), st2. split; [exact TK|]. split; [exact RD|]. split; [exact C2|]. split; [exact A02|]. split; [exact H2|].
  split; [|split].
  - intros i3 m es st3 X V3. destruct X as (n3 & E3 & N3).
    set (st4 := with_nid (Pos.succ (st_nid st3)) (more_vec es st3)).
    assert (V4 : vec_at st4 (st_nloc st3) = Some es) by (unfold st4, vec_at, more_vec; cbn [st_vecs with_nid with_nloc with_vecs]; rewrite find_add, Pos.eqb_refl; reflexivity).
    assert (EX : forall n oe, (n3 <= n)%nat -> eval_script n tr oe (src_text s) modname st =
      if oe then (Val (Some (mkv TList (OList (st_nloc st3)))), st4) else r_eval (run n) (P (st_nid st3) (OList (st_nloc st3))) main_sid st4).
    { intros n oe L. unfold eval_script. rewrite UN. assert (E3' := ends_at _ _ _ _ _ n3 n (mono_expand _ _) E3 N3 L).
      rewrite (bind_val _ _ _ _ _ _ _ E3'), (bind_val _ _ _ _ _ _ _ (copied _ i3 _ _ V3)). destruct oe; reflexivity. }
    exists (st_nid st3), (mkv TList (OList (st_nloc st3))), (st_nloc st3), st4. split; [repeat split; exact V4|].
    split; [exists n3; split; [rewrite (EX n3 true (Nat.le_refl _)); reflexivity|discriminate]|]. split; [intro H3; destruct (adds_list es st3 H3) as (A4 & H4 & _); split; assumption|].
    intros o st'. apply (ends_from _ _ (fun n => r_eval (run n) _ main_sid) st st4 n3); [apply mono_script|apply mono_eval|]. intros n L. apply (EX n false L).
  - intros e oe st3 (n & E & N). exists n. split; [|discriminate]. unfold eval_script. rewrite UN. unfold bind at 1. rewrite E. reflexivity.
  - intros u oe st3 (n & E & N). exists n. split; [|discriminate]. unfold eval_script. rewrite UN. unfold bind at 1. rewrite E. reflexivity.
Qed.

Lemma no_macros_listed : forall st tr modname s l ks, heap_numbered st -> scope_exists st main_sid -> src_ok s -> src_kinds s ks -> writes_all l ks ->
  (forall t, read_as (script_datum l) t -> macro_free st main_sid t) ->
  exists t v st', read_as (script_datum l) t /\ runs tr true (src_text s) modname st (Val (Some v)) st' /\ holds st' v (nil_emptied t) /\
    st_out st' = st_out st /\ (forall u n, var_at st' u n = var_at st u n) /\ (readable (nil_emptied t) -> var_str v st' = Val (written (nil_emptied t))).
Proof.
  intros st tr modname s l ks HN SE OK KS W FREE. destruct (script_stages st tr modname s l ks HN SE OK KS W) as (ts & t & p & st1 & _ & RD & C1 & A1 & H1 & X & _).
  assert (F1 : macro_free st1 main_sid t). { eapply adds_free; [exact A1|]. eapply free_by; [| |apply FREE, RD]; [intros; apply entered_var|intros u; apply entered_exists]. }
  destruct (expand_free main_sid t st1 p H1 C1 (proj1 read_parsed _ _ RD) F1) as (i & o & st2 & E & C2 & A2 & H2).
  inversion RD as [|ds ts' RS]; subst. cbn [nil_emptied] in C2. inversion C2 as [|i2 l2 ps2 ? V2 CS2]; subst.
  destruct (X i l2 ps2 st2) as (j & v & m' & st3 & IL & RUN & A3 & _); [apply eventually_ends; [discriminate|exact E]|exact V2|]. destruct (A3 H2) as (A3' & H3).
  assert (HO : holds st3 v (nil_emptied (CList ts'))) by (cbn [nil_emptied holds]; exists m', ps2; split; [exact IL|eapply forall2_adds; [exact A3'|exact CS2]]).
  exists (CList ts'), v, st3. split; [exact RD|]. split; [exact RUN|]. split; [exact HO|]. split; [|split].
  - destruct A3' as (_ & _ & _ & O3 & _). destruct A2 as (_ & _ & _ & O2 & _). destruct A1 as (_ & _ & _ & O1 & _). rewrite O3, O2, O1. apply entered_out.
  - intros u n. rewrite (adds_var _ _ _ _ A3'), (adds_var _ _ _ _ A2), (adds_var _ _ _ _ A1). apply entered_var.
  - intro R. apply value_printed; [exact H3|apply holds_data; assumption|exact R|exact Logic.I].
Qed.

(** ** Lists that begin with the name of a variable *)
Lemma no_function_value : forall v t st, plain_value v t -> function_value v st = Throw (no_function v t).
Proof.
  intros v t st H. unfold function_value, is_ty. assert (NF : ltype_eqb (v_ty v) TFun = false) by (destruct H as [(z & (T & _) & _)|((T & _) & _)]; rewrite T; reflexivity). rewrite NF.
  rewrite (cast_fail_ok _ v $"function" $"not found" t).
  - unfold no_function. rewrite <- ?app_assoc. reflexivity.
  - unfold string_value. destruct H as [(z & (_ & V) & ->)|((_ & V) & _)]; rewrite V; reflexivity.
  - destruct H as [(z & _ & ->)|(_ & F)]; [apply int_no_brace|exact F].
  - split; [cbn; intuition discriminate|discriminate].
  - split; [cbn; intuition discriminate|discriminate].
Qed.
Lemma expand_elems_app : forall R s a b qs st st1, expand_elems R a s st = (Val qs, st1) ->
  expand_elems R (a ++ b) s st = (let! rs := expand_elems R b s in ret (qs ++ rs)) st1.
Proof.
  intros R s a b. induction a as [|p a IH]; intros qs st st1 E.
  - cbn [expand_elems] in E. unfold ret in E. injection E as <- <-. cbn [app]. unfold bind. destruct (expand_elems R b s st) as [[|?|?|?|] ?]; reflexivity.
  - cbn [app expand_elems] in *. unfold bind at 1 in E. unfold bind at 1. destruct (r_expand R p s st) as [[q|?|?|?|] st2]; try discriminate. destruct q as [|i o].
    + apply IH, E.
    + unfold bind at 1 in E. unfold bind at 1. destruct (convert_list (P i o) st2) as [[c|?|?|?|] st3]; try discriminate.
      unfold bind at 1 in E. unfold bind at 1. destruct (expand_elems R a s st3) as [[qs1|?|?|?|] st4] eqn:E1; try discriminate. unfold ret in E. injection E as <- <-.
      rewrite (IH _ _ _ E1). unfold bind. destruct (expand_elems R b s st4) as [[|?|?|?|] ?]; reflexivity.
Qed.
Lemma codes_split : forall st ps a x b, codes_at st ps (a ++ x :: b) -> exists pa px pb, ps = pa ++ px :: pb /\ codes_at st pa a /\ code_at st px x /\ codes_at st pb b.
Proof.
  intros st ps a. revert ps. induction a as [|y a IH]; intros ps x b H; cbn [app] in H; inversion H as [|p ps' ? ? C CS]; subst.
  - exists [], p, ps'. split; [reflexivity|]. split; [constructor|]. split; assumption.
  - destruct (IH _ _ _ CS) as (pa & px & pb & -> & A & B & D). exists (p :: pa), px, pb. split; [reflexivity|]. split; [constructor; assumption|]. split; assumption.
Qed.
Lemma stumbles_later : forall s v t c st, stumbles st s v t c -> forall st1 p, only_adds st st1 -> heap_numbered st1 -> code_at st1 p c -> parsed c ->
  exists st', eventually (fun n => r_expand (run n) p s) st1 (Throw (no_function v t), st') /\ only_adds st1 st'.
Proof.
  intros s v t c st H. induction H as [h us i SE V PV|h us pre x post IN EQ FR SX IH]; intros st1 p A0 HN C PA.
  - inversion C as [|i' l ps ? EV CS]; subst. inversion CS as [|ph rest ? ? CH CR]; subst. apply parsed_list in PA. inversion PA as [|? ? PH _]; subst.
    exists st1. split; [|apply adds_refl]. exists 2%nat. intros m L. rewrite run_S by lia. cbn [step r_expand]. unfold expand_loop, bind at 1. rewrite run_S by lia. cbn [step r_expand1]. unfold expand_once.
    unfold bind at 1, reads at 1, get_vec. unfold vec_at in EV. rewrite EV. assert (T := text_of_code _ _ _ HN CH PH). unfold bind at 1, reads at 1. rewrite T.
    unfold bind at 1, reads at 1. rewrite (find_var _ _ _ (adds_exists _ _ _ A0 SE)), (adds_var _ _ _ _ A0), V. unfold bind, lift, reads. cbn [vref vref_obj]. rewrite (no_function_value _ _ _ PV). reflexivity.
  - inversion C as [|i' l ps ? EV CS]; subst. inversion CS as [|ph rest ? ? CH CR]; subst. assert (PAL := proj1 (parsed_list _) PA). inversion PAL as [|? ? PH _]; subst.
    rewrite EQ in CS, PAL. destruct (codes_split _ _ _ _ _ CS) as (pa & px & pb & EP & CA & CX & CB). rewrite Forall_app in PAL. destruct PAL as (P1 & P2). inversion P2 as [|? ? PX P3]; subst.
    assert (FR1 : Forall (macro_free st1 s) pre) by (rewrite Forall_forall in *; intros y Y; eapply adds_free; [exact A0|apply FR, Y]).
    assert (IN1 : inert st1 s (code_text h)).
    { eapply adds_inert; eassumption. }
    destruct (expand_all s pre (fun y _ w q => expand_free s y w q) st1 pa HN CA P1 FR1) as (qs & st2 & (n1 & R1) & C1 & A1 & H1).
    destruct (IH st2 px (adds_trans _ _ _ A0 A1) H1) as (st3 & (n2 & R2) & A2); [apply (proj1 (adds_code _ _ A1)), CX|exact PX|].
    exists st3. split; [|eapply adds_trans; eassumption]. exists (S (S (Nat.max n1 n2))). intros m L. rewrite run_S by lia. cbn [step r_expand]. unfold expand_loop, bind at 1. rewrite run_S by lia. cbn [step r_expand1]. unfold expand_once.
    unfold bind at 1, reads at 1, get_vec. unfold vec_at in EV. rewrite EV. assert (T := text_of_code _ _ _ HN CH PH). unfold bind at 1, reads at 1. rewrite T.
    unfold bind at 1, reads at 1. rewrite (find_var _ _ _ (inert_scope _ _ _ IN1)).
    assert (EX : (match var_at st1 s (code_text h) with None => ret None | Some q => let! v := lift (vref q) in let! f := reads (function_value v) in ret (if fn_ex f then Some f else None) end) st1 = (Val None, st1)).
    { destruct IN1 as ([(_ & V)|(j & v' & f & V & FN & EX)] & _); rewrite V; [reflexivity|]. unfold bind, lift, reads. cbn [vref vref_obj]. rewrite (fn_value _ _ _ FN). unfold ret. rewrite EX. reflexivity. }
    unfold bind at 1. rewrite EX. unfold bind at 1, reads at 1.
    assert (EE : expand_elems (run (m - 1 - 1)%nat) (ph :: rest) s st1 = (Throw (no_function v t), st3)).
    { rewrite EP, (expand_elems_app _ _ _ _ _ _ _ (R1 (m - 1 - 1)%nat ltac:(lia))). unfold bind at 1. cbn [expand_elems]. unfold bind at 1. rewrite R2 by lia. reflexivity. }
    destruct (inert_macro _ _ _ ph IN1 T) as [->|(j & fs & b & ->)]; unfold bind at 1; rewrite EE; reflexivity.
Qed.
Lemma stumbles_throws : forall s v t c st p, stumbles st s v t c -> heap_numbered st -> code_at st p c -> parsed c ->
  exists st', expands p s st (Throw (no_function v t)) st' /\ only_adds st st'.
Proof.
  intros s v t c st p H HN C PA. destruct (stumbles_later s v t c st H st p (adds_refl _) HN C PA) as (st' & E & A). exists st'. split; [apply eventually_ends; [discriminate|exact E]|exact A].
Qed.
Lemma stumbles_by : forall st st' s v t c, (forall u n, var_at st' u n = var_at st u n) -> (forall u, scope_exists st u -> scope_exists st' u) -> stumbles st s v t c -> stumbles st' s v t c.
Proof.
  intros st st' s v t c V X H. induction H as [h us i SE VA PV|h us pre x post IN EQ FR _ IH].
  - apply (sb_here _ _ _ _ _ _ i); [apply X, SE|rewrite V; exact VA|exact PV].
  - eapply sb_inside; [eapply inert_by; eassumption|exact EQ| |exact IH]. rewrite Forall_forall in *. intros y Y. eapply free_by; [exact V|exact X|apply FR, Y].
Qed.
Lemma stumbling_script : forall st tr oe modname s l ks v t, heap_numbered st -> scope_exists st main_sid -> src_ok s -> src_kinds s ks -> writes_all l ks ->
  (forall c, read_as (script_datum l) c -> stumbles st main_sid v t c) ->
  exists st', runs tr oe (src_text s) modname st (Throw (no_function v t)) st' /\ st_out st' = st_out st /\ (forall u n, var_at st' u n = var_at st u n).
Proof.
  intros st tr oe modname s l ks v t HN SE OK KS W ST. destruct (script_stages st tr modname s l ks HN SE OK KS W) as (ts & c & p & st1 & _ & RD & C1 & A1 & H1 & _ & X & _).
  assert (S1 : stumbles st1 main_sid v t c).
  { eapply stumbles_by; [| |apply ST, RD]; [intros u n; rewrite (adds_var _ _ _ _ A1); apply entered_var|intros u E; eapply adds_exists; [exact A1|]; apply entered_exists, E]. }
  destruct (stumbles_throws main_sid v t c st1 p S1 H1 C1 (proj1 read_parsed _ _ RD)) as (st2 & E & A2). exists st2. split; [apply X, E|]. split.
  - destruct A2 as (_ & _ & _ & O2 & _). destruct A1 as (_ & _ & _ & O1 & _). rewrite O2, O1. apply entered_out.
  - intros u n. rewrite (adds_var _ _ _ _ A2), (adds_var _ _ _ _ A1). apply entered_var.
Qed.
(** ** Scripts *)
Lemma macro_listed : exists v st', runs false true $"(define-macro-expand twice (x) (list '+ x x)) (print (twice 3))" [] fresh (Val (Some v)) st' /\
  var_str v st' = Val $"(do (print (+ 3 3)))" /\ st_out st' = [].
Proof. eexists. eexists. split; [apply (runs_by 60); [vm_compute; reflexivity|discriminate]|]. split; vm_compute; reflexivity. Qed.
Lemma quoted_expanded : exists v st', runs false false $"(define-macro-expand twice (x) (list '+ x x)) (str '(twice 3))" [] fresh (Val (Some v)) st' /\ is_str v $"(+ 3 3)".
Proof. eexists. eexists. split; [apply (runs_by 60); [vm_compute; reflexivity|discriminate]|]. split; reflexivity. Qed.
Lemma data_stumbles : exists st1 st2 st' v, runs false false $"(def x 5)" [] fresh (Val v) st1 /\ runs false false $"(print 1) (str '(x 2))" [] st1
    (Throw (ELisp $"Invalid cast for function, value=5 not found" (ErrInfo 1 7 8 $"???" $"???"))) st2 /\ st_out st2 = [] /\
  exists w, runs false false $"(print 1) (str '(x 2))" [] fresh (Val (Some w)) st' /\ is_str w $"(x 2)".
Proof.
  eexists. eexists. eexists. eexists. split; [apply (runs_by 60); [vm_compute; reflexivity|discriminate]|]. split; [apply (runs_by 60); [vm_compute; reflexivity|discriminate]|].
  split; [vm_compute; reflexivity|]. eexists. split; [apply (runs_by 60); [vm_compute; reflexivity|discriminate]|]. split; reflexivity.
Qed.
Lemma expansion_prints : exists v st', runs false true $"(define-macro-expand m (x) (do (print 7) '(+ 1 x))) (m 2)" [] fresh (Val (Some v)) st' /\
  st_out st' = $"7".
Proof. eexists. eexists. split; [apply (runs_by 60); [vm_compute; reflexivity|discriminate]|]. vm_compute; reflexivity. Qed.
(** After (def x 5). *)
Definition five_st : state := snd (eval_script 40 false false $"(def x 5)" [] fresh).
