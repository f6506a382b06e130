(** Property C42 (printed values read back) and C52 (running the text of a script). *)
Require Import String Ascii List ZArith Bool Lia.
Require Import PArith FMapPositive.
From Verif Require Import Base CppString Num Token Value State Show Builtins Eval LispTop SpecLex SpecParse SpecRun SpecVal SpecNum SpecList SpecForm SpecMacro SpecRead
  RunProofs ErrProofs ListProofs FormProofs MacroProofs QuoteProofs ReadProofs.
Import ListNotations.

(** ** C42: printed values read back *)
Theorem C42_read_back : forall st0 w t, heap_numbered st0 -> is_data st0 w t -> plain_data t -> exists txt, var_str w st0 = Val txt /\
  forall st modname code, can_quote st -> word_names st -> (code = $"(quote " ++ txt ++ $")" \/ code = $"'" ++ txt) ->
  exists v st' t', runs false false code modname st (Val (Some v)) st' /\ holds st' v t' /\ same_code t t' /\ var_str v st' = Val txt /\
    st_out st' = st_out st /\ forall u n, var_at st' u n = var_at st u n.
Proof. exact read_back_plain. Qed.
Print Assumptions C42_read_back.
Theorem C42_read_back_texts : forall st0 w t, heap_numbered st0 -> is_data st0 w t -> readable t -> no_text t -> exists txt, var_str w st0 = Val txt /\
  forall st modname code, can_quote st -> macro_free st main_sid t -> (code = $"(quote " ++ txt ++ $")" \/ code = $"'" ++ txt /\ (forall v, t = CAtom v -> v_ty v <> TSym)) ->
  exists v st' t', runs false false code modname st (Val (Some v)) st' /\ holds st' v t' /\ same_code t t' /\ var_str v st' = Val txt /\
    st_out st' = st_out st /\ forall u n, var_at st' u n = var_at st u n.
Proof. exact read_back_quote. Qed.
Print Assumptions C42_read_back_texts.
Theorem C42_fresh : forall inp files e, can_quote (init_state inp files e) /\ word_names (init_state inp files e).
Proof. exact fresh_ready. Qed.
Print Assumptions C42_fresh.
Theorem C42_nil_refuted : exists v st' v2 st2, runs false false $"(str (list 1 nil))" [] fresh (Val (Some v)) st' /\ is_str v $"(1 NIL)" /\
  runs false false $"(quote (1 NIL))" [] fresh (Val (Some v2)) st2 /\ var_str v2 st2 = Val $"(1 ())".
Proof. exact nil_not_read. Qed.
Print Assumptions C42_nil_refuted.
Theorem C42_text_refuted : exists v st' v2 st2, runs false false ($"(list " ++ [c_dquote] ++ $"a" ++ [c_bslash; c_dquote] ++ $"b" ++ [c_dquote] ++ $")") [] fresh (Val (Some v)) st' /\
  var_str v st' = Val ($"(" ++ [c_dquote] ++ $"a" ++ [c_dquote] ++ $"b" ++ [c_dquote] ++ $")") /\
  runs false false ($"(quote (" ++ [c_dquote] ++ $"a" ++ [c_dquote] ++ $"b" ++ [c_dquote] ++ $"))") [] fresh (Throw v2) st2.
Proof. exact text_not_read. Qed.
Print Assumptions C42_text_refuted.
Example C42_ex : let r := eval_script 60 false false $"(list 1 (list #t -5) '(2 ()))" [] fresh in
  let t := CList [CAtom (vint 1); CList [CAtom (vbool true); CAtom (vint (-5))]; CList [CAtom (vint 2); CList []]] in
  exists v t', fst r = Val (Some v) /\ heap_numbered (snd r) /\ is_data (snd r) v t' /\ same_code t t' /\ plain_data t' /\ var_str v (snd r) = Val $"(1 (#t -5) (2 ()))".
Proof.
  cbv zeta. eexists. eexists (CList [CAtom _; CList [CAtom _; CAtom _]; CList [CAtom _; CList []]]). split; [vm_compute; reflexivity|]. split; [apply reachable_heap, reach_eval, reach_init|]. split.
  - eexists _, _. split; [split; [reflexivity|split; [reflexivity|vm_compute; reflexivity]]|].
    constructor; [apply dt_atom; discriminate|]. constructor; [|constructor; [|constructor]].
    + eapply dt_list; [split; [reflexivity|split; [reflexivity|vm_compute; reflexivity]]|]. constructor; [apply dt_atom; discriminate|]. constructor; [apply dt_atom; discriminate|constructor].
    + eapply dt_list; [split; [reflexivity|split; [reflexivity|vm_compute; reflexivity]]|]. constructor; [apply dt_atom; discriminate|]. constructor; [|constructor].
      eapply dt_code; [vm_compute; reflexivity|constructor].
  - split; [repeat (constructor; try reflexivity)|]. split; [|vm_compute; reflexivity].
    cbn [plain_data]. unfold is_int, is_bool, fits. cbn [v_ty v_val]. repeat split; try (left; eexists; repeat split; lia); right; eexists; repeat split.
Qed.
Example C42_texts_ex : let t := CList [CAtom (mkv TSym (OString $"a-b")); CAtom (vstr $"x (y"); CList [CAtom (mkv TSym (OString $"list")); CAtom (vbool false)]] in
  readable t /\ no_text t /\ macro_free fresh main_sid t /\ written t = $"(a-b " ++ [c_dquote] ++ $"x (y" ++ [c_dquote] ++ $" (list #f))".
Proof.
  assert (SE : scope_exists fresh main_sid) by (apply main_here; vm_compute; exact I).
  assert (SM : scope_exists fresh macros_sid) by (eexists; vm_compute; reflexivity).
  assert (S : forall w, In w [$"a-b"; $"list"] -> symbol_text w).
  { intros w [<-|[<-|[]]]; (split; [split; [discriminate|reflexivity]|right; right; split; [reflexivity|vm_compute; intuition discriminate]]). }
  cbv zeta. split; [|split; [exact I|split; [|reflexivity]]].
  - cbn [readable]. unfold readable_atom. repeat split.
    + right. right. left. eexists. split; [split; reflexivity|]. apply S. left. reflexivity.
    + right. right. right. eexists. split; [split; reflexivity|]. reflexivity.
    + right. right. left. eexists. split; [split; reflexivity|]. apply S. right. left. reflexivity.
    + right. left. eexists. split; reflexivity.
  - split; [|repeat split].
    + split; [left; split; [exact SE|vm_compute; reflexivity]|right; eexists _, _; split; [vm_compute; reflexivity|split; [exact SM|left; vm_compute; reflexivity]]].
    + right. eexists _, _, _. split; [vm_compute; reflexivity|split; [split; reflexivity|reflexivity]].
    + right. eexists _, _. split; [vm_compute; reflexivity|split; [exact SM|left; vm_compute; reflexivity]].
Qed.

(** ** C52: running the text of a script *)
Theorem C52_script : forall st tr modname s l ks, heap_numbered st -> scope_exists st main_sid -> src_ok s -> src_kinds s ks -> writes_all l ks ->
  (forall t, read_as (script_datum l) t -> macro_free st main_sid t) ->
  exists ts t p st1, kinds_of (Val ts) = Val (open_kind :: ((TkSymbol, TvStr $"do") :: ks) ++ [close_kind]) /\
    read_as (script_datum l) t /\ code_at st1 p (nil_emptied t) /\ only_adds (entered st tr modname ts) st1 /\ heap_numbered st1 /\
    forall o st', runs tr false (src_text s) modname st o st' <-> evals p main_sid st1 o st'.
Proof. exact script_runs. Qed.
Print Assumptions C52_script.
Example C52_ex : let s := [(LxOpen, []); (LxWord $"print", $" "); (LxWord $"-7", []); (LxClose, $" "); (LxComment $" the end", [])] in
  let ks := [open_kind; (TkSymbol, TvStr $"print"); (TkInt, TvInt (-7)); close_kind; (TkComment, TvStr ([c_semi] ++ $" the end" ++ [c_nl]))] in
  let l := [EList [EAtom (TkSymbol, TvStr $"print"); EAtom (TkInt, TvInt (-7))]] in
  heap_numbered fresh /\ scope_exists fresh main_sid /\ src_ok s /\ src_kinds s ks /\ writes_all l ks /\ (forall t, read_as (script_datum l) t -> macro_free fresh main_sid t).
Proof.
  assert (SE : scope_exists fresh main_sid) by (apply main_here; vm_compute; exact I).
  assert (SM : scope_exists fresh macros_sid) by (eexists; vm_compute; reflexivity).
  cbv zeta. split; [apply reachable_heap, reach_init|]. split; [exact SE|]. split; [|split; [|split]].
  - cbn [src_ok lx_ok]. repeat split; try discriminate; try (intros; exact I); auto. intro H. vm_compute in H. intuition discriminate.
  - cbn [src_kinds lx_means]. repeat split; try reflexivity.
    + apply wm_symbol. split; [split; [discriminate|reflexivity]|right; right; split; [reflexivity|vm_compute; intuition discriminate]].
    + apply wm_int; [apply (it_minus $"7"); [discriminate|reflexivity]|lia].
  - apply (ws_cons _ _ [open_kind; (TkSymbol, TvStr $"print"); (TkInt, TvInt (-7)); close_kind]); [|apply ws_comment, ws_nil].
    apply (w_list _ [(TkSymbol, TvStr $"print"); (TkInt, TvInt (-7))]). apply (ws_cons _ _ [_] [_]); [apply w_atom; reflexivity|]. apply (ws_cons _ _ [_] []); [apply w_atom; reflexivity|apply ws_nil].
  - assert (IN : forall n, In n [$"do"; $"print"] -> inert fresh main_sid n).
    { intros n [<-|[<-|[]]]; (split; [right; eexists _, _, _; split; [vm_compute; reflexivity|split; [split; reflexivity|reflexivity]]|right; eexists _, _; split; [vm_compute; reflexivity|split; [exact SM|left; vm_compute; reflexivity]]]). }
    intros t H. inversion H as [|? ? H1]; subst. inversion H1 as [|? ? c1 ? H2 H3]; subst. inversion H2 as [? d (_ & D)|]; subst. inversion H3 as [|? ? c2 ? H4 H5]; subst. inversion H5; subst.
    inversion H4 as [|? ? H6]; subst. inversion H6 as [|? ? c3 ? H7 H8]; subst. inversion H7 as [? q (_ & Q)|]; subst. inversion H8 as [|? ? u ? H9 H10]; subst. inversion H10; subst. inversion H9; subst.
    cbn [macro_free code_text]. unfold atom_text. destruct D as (-> & ->). destruct Q as (-> & ->). repeat split; (apply IN || exact I); cbn; auto.
Qed.
