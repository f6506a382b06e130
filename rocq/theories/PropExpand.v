(** Property C79: expansion of a script before it is run. *)
Require Import String Ascii List ZArith Bool Lia.
Require Import PArith FMapPositive.
From Verif Require Import Base CppString Num Token Value State Show Builtins Eval LispTop SpecLex SpecParse SpecRun SpecVal SpecNum SpecList SpecForm SpecMacro SpecRead SpecExpand
  RunProofs ErrProofs ListProofs FormProofs MacroProofs QuoteProofs ReadProofs ExpandProofs.
Import ListNotations.

(** ** C79: expansion of a script *)
Theorem C79_stages : forall st tr modname s l ks, heap_numbered st -> scope_exists st main_sid -> src_ok s -> src_kinds s ks -> writes_all l ks ->
  exists ts t p st1, kinds_of (Val ts) = Val (open_kind :: ((TkSymbol, TvStr $"do") :: ks) ++ [close_kind]) /\
    read_as (script_datum l) t /\ code_at st1 p t /\ only_adds (entered st tr modname ts) st1 /\ heap_numbered st1 /\
    (forall i m es st2, expands p main_sid st1 (Val (P i (OList m))) st2 -> vec_at st2 m = Some es ->
       exists j v m' st3, is_list_at st3 v m' es /\ runs tr true (src_text s) modname st (Val (Some v)) st3 /\ (heap_numbered st2 -> only_adds st2 st3 /\ heap_numbered st3) /\
         forall o st', runs tr false (src_text s) modname st o st' <-> evals (P j (OList m')) main_sid st3 o st') /\
    (forall e oe st2, expands p main_sid st1 (Throw e) st2 -> runs tr oe (src_text s) modname st (Throw e) st2) /\
    (forall u oe st2, expands p main_sid st1 (Undef u) st2 -> runs tr oe (src_text s) modname st (Undef u) st2).
Proof. exact script_stages. Qed.
Print Assumptions C79_stages.
Theorem C79_listed : forall st tr modname s l ks, heap_numbered st -> scope_exists st main_sid -> src_ok s -> src_kinds s ks -> writes_all l ks ->
  (forall t, read_as (script_datum l) t -> macro_free st main_sid t) ->
  exists t v st', read_as (script_datum l) t /\ runs tr true (src_text s) modname st (Val (Some v)) st' /\ holds st' v (nil_emptied t) /\
    st_out st' = st_out st /\ (forall u n, var_at st' u n = var_at st u n) /\ (readable (nil_emptied t) -> var_str v st' = Val (written (nil_emptied t))).
Proof. exact no_macros_listed. Qed.
Print Assumptions C79_listed.
Theorem C79_stumbles : forall st tr oe modname s l ks v t, heap_numbered st -> scope_exists st main_sid -> src_ok s -> src_kinds s ks -> writes_all l ks ->
  (forall c, read_as (script_datum l) c -> stumbles st main_sid v t c) ->
  exists st', runs tr oe (src_text s) modname st (Throw (no_function v t)) st' /\ st_out st' = st_out st /\ (forall u n, var_at st' u n = var_at st u n).
Proof. exact stumbling_script. Qed.
Print Assumptions C79_stumbles.
Theorem C79_macro : exists v st', runs false true $"(define-macro-expand twice (x) (list '+ x x)) (print (twice 3))" [] fresh (Val (Some v)) st' /\
  var_str v st' = Val $"(do (print (+ 3 3)))" /\ st_out st' = [].
Proof. exact macro_listed. Qed.
Print Assumptions C79_macro.
Theorem C79_silent_refuted : exists v st', runs false true $"(define-macro-expand m (x) (do (print 7) '(+ 1 x))) (m 2)" [] fresh (Val (Some v)) st' /\
  st_out st' = $"7".
Proof. exact expansion_prints. Qed.
Print Assumptions C79_silent_refuted.
Theorem C79_quote_refuted : exists v st', runs false false $"(define-macro-expand twice (x) (list '+ x x)) (str '(twice 3))" [] fresh (Val (Some v)) st' /\ is_str v $"(+ 3 3)".
Proof. exact quoted_expanded. Qed.
Print Assumptions C79_quote_refuted.
Theorem C79_data_refuted : exists st1 st2 st' v, runs false false $"(def x 5)" [] fresh (Val v) st1 /\ runs false false $"(print 1) (str '(x 2))" [] st1
    (Throw (ELisp $"Invalid cast for function, value=5 not found" (ErrInfo 1 7 8 $"???" $"???"))) st2 /\ st_out st2 = [] /\
  exists w, runs false false $"(print 1) (str '(x 2))" [] fresh (Val (Some w)) st' /\ is_str w $"(x 2)".
Proof. exact data_stumbles. Qed.
Print Assumptions C79_data_refuted.
Example C79_ex : let s := [(LxOpen, []); (LxWord $"x", $" "); (LxWord $"-7", []); (LxClose, [])] in
  let ks := [open_kind; (TkSymbol, TvStr $"x"); (TkInt, TvInt (-7)); close_kind] in
  let l := [EList [EAtom (TkSymbol, TvStr $"x"); EAtom (TkInt, TvInt (-7))]] in
  heap_numbered five_st /\ scope_exists five_st main_sid /\ src_ok s /\ src_kinds s ks /\ writes_all l ks /\
  (exists v, forall c, read_as (script_datum l) c -> stumbles five_st main_sid v $"5" c) /\
  heap_numbered fresh /\ scope_exists fresh main_sid /\ (forall c, read_as (script_datum l) c -> macro_free fresh main_sid c).
Proof.
  assert (SE : scope_exists fresh main_sid) by (apply main_here; vm_compute; exact Logic.I).
  assert (SE5 : scope_exists five_st main_sid) by (apply main_here; vm_compute; exact Logic.I).
  assert (SM : scope_exists fresh macros_sid) by (eexists; vm_compute; reflexivity).
  assert (SM5 : scope_exists five_st macros_sid) by (eexists; vm_compute; reflexivity).
  cbv zeta. split; [apply reachable_heap, reach_eval, reach_init|]. split; [exact SE5|]. split; [|split; [|split; [|split; [|split; [|split]]]]].
  - cbn [src_ok lx_ok]. repeat split; try discriminate; try (intros; exact Logic.I); auto.
  - cbn [src_kinds lx_means]. repeat split; try reflexivity.
    + apply wm_symbol. split; [split; [discriminate|reflexivity]|right; right; split; [reflexivity|vm_compute; intuition discriminate]].
    + apply wm_int; [apply (it_minus $"7"); [discriminate|reflexivity]|lia].
  - apply (ws_cons _ _ [open_kind; (TkSymbol, TvStr $"x"); (TkInt, TvInt (-7)); close_kind] []); [|apply ws_nil].
    apply (w_list _ [(TkSymbol, TvStr $"x"); (TkInt, TvInt (-7))]). apply (ws_cons _ _ [_] [_]); [apply w_atom; reflexivity|]. apply (ws_cons _ _ [_] []); [apply w_atom; reflexivity|apply ws_nil].
  - eexists. intros c H. inversion H as [|? ? H1]; subst. inversion H1 as [|? ? c1 ? H2 H3]; subst. inversion H2 as [? d (_ & D)|]; subst. inversion H3 as [|? ? c2 ? H4 H5]; subst. inversion H5; subst.
    inversion H4 as [|? ? H6]; subst. inversion H6 as [|? ? c3 ? H7 H8]; subst. inversion H7 as [? q (_ & Q)|]; subst. inversion H8 as [|? ? u ? H9 H10]; subst. inversion H10; subst.
    destruct D as (D1 & D2). destruct Q as (Q1 & Q2).
    apply (sb_inside _ _ _ _ _ _ [CAtom d] (CList [CAtom q; u]) []); [|reflexivity|repeat constructor|].
    + cbn [code_text]. unfold atom_text. rewrite D1, D2. split; [right; eexists _, _, _; split; [vm_compute; reflexivity|split; [split; reflexivity|reflexivity]]|right; eexists _, _; split; [vm_compute; reflexivity|split; [exact SM5|left; vm_compute; reflexivity]]].
    + eapply sb_here; [exact SE5|cbn [code_text]; unfold atom_text; rewrite Q1, Q2; vm_compute; reflexivity|]. left. exists 5%Z. split; [split; reflexivity|reflexivity].
  - apply reachable_heap, reach_init.
  - exact SE.
  - assert (IN : forall n, In n [$"do"; $"x"] -> inert fresh main_sid n).
    { intros n [<-|[<-|[]]]; (split; [first [right; eexists _, _, _; split; [vm_compute; reflexivity|split; [split; reflexivity|reflexivity]]|left; split; [exact SE|vm_compute; reflexivity]]
        |right; eexists _, _; split; [vm_compute; reflexivity|split; [exact SM|left; vm_compute; reflexivity]]]). }
    intros t H. inversion H as [|? ? H1]; subst. inversion H1 as [|? ? c1 ? H2 H3]; subst. inversion H2 as [? d (_ & D)|]; subst. inversion H3 as [|? ? c2 ? H4 H5]; subst. inversion H5; subst.
    inversion H4 as [|? ? H6]; subst. inversion H6 as [|? ? c3 ? H7 H8]; subst. inversion H7 as [? q (_ & Q)|]; subst. inversion H8 as [|? ? u ? H9 H10]; subst. inversion H10; subst. inversion H9; subst.
    cbn [macro_free code_text]. unfold atom_text. destruct D as (-> & ->). destruct Q as (-> & ->). repeat split; (apply IN || exact Logic.I); cbn; auto.
Qed.
