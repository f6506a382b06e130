(** Running the text of a script; reading printed values back. *)
Require Import String Ascii List ZArith Bool Lia.
Require Import PArith FMapPositive FinFun.
From Verif Require Import Base CppString Num Token Tokenizer Parser Value State Show ScopeOps Builtins Table Eval LispTop SpecLex SpecParse SpecRun SpecVal SpecNum SpecList SpecForm SpecCalc SpecMacro SpecRead
  ClassifyProofs LexProofs ParseProofs BuiltinProofs Wf FuelProofs RunProofs NumProofs ErrProofs ListProofs FormProofs ClosProofs CalcProofs MacroProofs QuoteProofs.
From Verif Require FrameProofs.
Import ListNotations.

Scheme read_mut := Minimality for read_as Sort Prop with reads_mut := Minimality for reads_as Sort Prop.
Combined Scheme read_both from read_mut, reads_mut.
Scheme same_mut := Minimality for same_code Sort Prop with sames_mut := Minimality for same_codes Sort Prop.
Combined Scheme same_both from same_mut, sames_mut.

(** ** Tokens with a meaning *)
Definition meant (k : toktype * tokval) : Prop := exists x, lx_means x k.
Inductive datum_ok : datum -> Prop :=
| dk_atom : forall k, meant k -> atom_type (fst k) = true -> datum_ok (DAtom k)
| dk_list : forall ds, Forall datum_ok ds -> datum_ok (DList ds).
Lemma kinds_meant : forall s ks, src_kinds s ks -> Forall meant ks.
Proof.
  induction s as [|[x b] s IH]; intros [|k ks] H; try contradiction; [constructor|]. destruct H as (A & B). constructor; [exists x; exact A|apply IH, B].
Qed.
Lemma symbol_meant : forall t, symbol_text t -> meant (TkSymbol, TvStr t).
Proof. intros t H. exists (LxWord t). apply wm_symbol, H. Qed.
Lemma mark_symbol : forall m, symbol_text (mark_name m).
Proof.
  intro m. split; [destruct m; split; [discriminate|reflexivity|discriminate|reflexivity|discriminate|reflexivity|discriminate|reflexivity]|].
  right. right. destruct m; (split; [reflexivity|vm_compute; intuition discriminate]).
Qed.
Lemma writes_ok : (forall e ks, writes e ks -> Forall meant ks -> datum_ok (datum_of e)) /\
  (forall l ks, writes_all l ks -> Forall meant ks -> Forall datum_ok (map datum_of l)).
Proof.
  apply (writes_mutind (fun e ks _ => Forall meant ks -> datum_ok (datum_of e)) (fun l ks _ => Forall meant ks -> Forall datum_ok (map datum_of l))).
  - intros k A H. inversion H; subst. apply dk_atom; assumption.
  - intros l ks W IH H. cbn [datum_of]. apply dk_list, IH. inversion H as [|? ? _ H']; subst. apply Forall_app in H'. apply H'.
  - intros m e ks Q W IH H. cbn [datum_of]. apply dk_list. constructor; [apply dk_atom; [apply symbol_meant, mark_symbol|reflexivity]|]. constructor; [|constructor].
    apply IH. inversion H; assumption.
  - intros m e c ks W IH H. apply IH. inversion H as [|? ? A H']; subst. inversion H'; subst. constructor; assumption.
  - constructor.
  - intros e l k1 k2 W1 IH1 W2 IH2 H. apply Forall_app in H. destruct H as (H1 & H2). cbn [map]. constructor; auto.
  - intros l c ks W IH H. apply IH. inversion H; assumption.
Qed.
Lemma token_read : forall tk, meant (tk_kind tk) -> atom_type (tk_type tk) = true -> atom_read (tk_kind tk) (var_of_token tk).
Proof.
  intros [ty v b e ln] (x & H) A. cbn [tk_kind tk_type tk_val] in *. split; [reflexivity|].
  destruct x as [ | | | | | |w|src val|c]; cbn [lx_means] in H; try (injection H as -> ->; first [discriminate A|split; reflexivity]).
  inversion H; subst; cbn; try (split; reflexivity); reflexivity.
Qed.

(** ** Loading the tree *)
Lemma load_list : forall ts, load_tree (PList ts) = (let! ps := (fix go (ts : list ptree) : M (list ptr) :=
                  match ts with
                  | [] => ret []
                  | t :: ts' => let! p := load_tree t in let! ps := go ts' in ret (p :: ps)
                  end) ts in new_list_ptr ps).
Proof. reflexivity. Qed.
Lemma load_code : forall p st, heap_numbered st -> datum_ok (erase p) ->
  exists i o t st', load_tree p st = (Val (P i o), st') /\ code_at st' (P i o) t /\ read_as (erase p) t /\ only_adds st st' /\ heap_numbered st'.
Proof.
  fix IH 1. intros [tk|n|ts] st HN OK; cbn [erase] in OK.
  - inversion OK as [? M A|]; subst. eexists _, _, (CAtom (var_of_token tk)), _. split; [reflexivity|]. split; [apply ca_atom|]. split; [apply ra_atom, token_read; assumption|].
    split; [apply adds_nid|exact HN].
  - eexists _, _, (CAtom (mkv TSym (OString n))), _. split; [reflexivity|]. split; [apply ca_atom|]. split; [apply ra_atom; split; [reflexivity|split; reflexivity]|].
    split; [apply adds_nid|exact HN].
  - assert (OK' : Forall datum_ok (map erase ts)) by (inversion OK; assumption). rewrite load_list.
    assert (X : exists ps us st1, (fix go (ts : list ptree) : M (list ptr) :=
                  match ts with
                  | [] => ret []
                  | t :: ts' => let! p := load_tree t in let! ps := go ts' in ret (p :: ps)
                  end) ts st = (Val ps, st1) /\ codes_at st1 ps us /\ reads_as (map erase ts) us /\ only_adds st st1 /\ heap_numbered st1).
    { clear OK. revert st HN OK'. induction ts as [|t ts IHt]; intros st HN OK'.
      - exists [], [], st. split; [reflexivity|]. split; [constructor|]. split; [constructor|]. split; [apply adds_refl|exact HN].
      - inversion OK' as [|? ? O1 O2]; subst. destruct (IH t st HN O1) as (i & o & u & st1 & E1 & C1 & R1 & A1 & H1).
        destruct (IHt st1 H1 O2) as (ps & us & st2 & E2 & C2 & R2 & A2 & H2). exists (P i o :: ps), (u :: us), st2.
        split; [unfold bind at 1; rewrite E1; unfold bind at 1; rewrite E2; reflexivity|]. split; [constructor; [apply (proj1 (adds_code _ _ A2)), C1|exact C2]|].
        split; [constructor; assumption|]. split; [eapply adds_trans; eassumption|exact H2]. }
    destruct X as (ps & us & st1 & E1 & C1 & R1 & A1 & H1). destruct (adds_list ps st1 H1) as (A2 & H2 & V2).
    eexists _, _, (CList us), _. split; [unfold bind at 1; rewrite E1, list_ptr_run; reflexivity|]. split; [|split; [apply ra_list, R1|split; [eapply adds_trans; eassumption|exact H2]]].
    eapply ca_list; [exact V2|]. eapply forall2_adds; [exact A2|exact C1].
Qed.

(** ** What the code of a script looks like *)
Lemma read_parsed : (forall d t, read_as d t -> parsed t) /\ (forall ds ts, reads_as ds ts -> Forall parsed ts).
Proof.
  apply read_both.
  - intros [ty v] w (_ & H). cbn [parsed]. unfold parsed_atom. destruct ty; try contradiction; destruct v; try contradiction; eauto 10.
  - intros ds ts _ H. apply parsed_list, H.
  - constructor.
  - intros; constructor; assumption.
Qed.

(** ** Entering the script *)
Lemma add_twice : forall A k (a b : A) m, PositiveMap.add k b (PositiveMap.add k a m) = PositiveMap.add k b m.
Proof. intros A k. induction k as [k IH|k IH|]; intros a b [|l o r]; cbn [PositiveMap.add]; try rewrite IH; reflexivity. Qed.
Lemma entered_scope : forall st tr m ts u, scope_at (entered st tr m ts) u =
  if Pos.eqb u main_sid then option_map (fun sc => set_tokens ts (set_tracing tr (set_module m sc))) (scope_at st u) else scope_at st u.
Proof.
  intros st tr m ts u. unfold entered. destruct (scope_at st main_sid) as [sc|] eqn:E.
  - unfold scope_at. cbn [st_scopes with_scopes]. rewrite find_add. destruct (Pos.eqb_spec u main_sid) as [->|N]; [|reflexivity]. fold (scope_at st main_sid). rewrite E. reflexivity.
  - destruct (Pos.eqb_spec u main_sid) as [->|N]; [rewrite E|]; reflexivity.
Qed.
Lemma entered_var : forall st tr m ts u n, var_at (entered st tr m ts) u n = var_at st u n.
Proof. intros st tr m ts u n. unfold var_at. rewrite entered_scope. destruct (Pos.eqb u main_sid); [|reflexivity]. destruct (scope_at st u); reflexivity. Qed.
Lemma entered_exists : forall st tr m ts u, scope_exists (entered st tr m ts) u <-> scope_exists st u.
Proof.
  intros st tr m ts u. unfold scope_exists. rewrite entered_scope. destruct (Pos.eqb u main_sid); [|reflexivity].
  destruct (scope_at st u) as [sc|]; cbn [option_map]; split; intros (x & H); try discriminate H; eexists; reflexivity.
Qed.
Lemma entered_heap : forall st tr m ts, heap_numbered st -> heap_numbered (entered st tr m ts).
Proof. intros st tr m ts H. unfold entered. destruct (scope_at st main_sid); exact H. Qed.
Lemma inert_by : forall st st' s n, (forall u k, var_at st' u k = var_at st u k) -> (forall u, scope_exists st u -> scope_exists st' u) -> inert st s n -> inert st' s n.
Proof.
  intros st st' s n V X (A & B). split.
  - destruct A as [(E & A)|A]; [left; split; [apply X, E|rewrite V; exact A]|right; rewrite V; exact A].
  - rewrite V. destruct B as [B|(i & ms & B1 & B2 & B3)]; [left; exact B|right]. exists i, ms. rewrite V. auto.
Qed.
Lemma free_by : forall st st' s, (forall u k, var_at st' u k = var_at st u k) -> (forall u, scope_exists st u -> scope_exists st' u) -> forall t, macro_free st s t -> macro_free st' s t.
Proof.
  intros st st' s V X t. induction t as [v|ts IH] using code_tree_ind; [exact (fun x => x)|]. destruct ts as [|h ts]; [exact (fun x => x)|].
  rewrite !free_list. intros (A & B). split; [eapply inert_by; eassumption|]. rewrite Forall_forall in *. auto.
Qed.
(** ** The decorated text *)
Fixpoint pad (s : source) (b : str) : source :=
  match s with
  | [] => []
  | [(x, c)] => [(x, c ++ b)]
  | y :: s' => y :: pad s' b
  end.
Lemma pad_text : forall s b, s <> [] -> src_text (pad s b) = src_text s ++ b.
Proof.
  induction s as [|[x c] s IH]; intros b N; [congruence|]. destruct s as [|y s]; [cbn [pad src_text]; rewrite !app_nil_r, app_assoc; reflexivity|].
  change (pad ((x, c) :: y :: s) b) with ((x, c) :: pad (y :: s) b). cbn [src_text]. fold (src_text (y :: s)). rewrite IH by discriminate. cbn [src_text]. rewrite <- !app_assoc. reflexivity.
Qed.
Lemma pad_kinds : forall s b ks, src_kinds (pad s b) ks <-> src_kinds s ks.
Proof.
  induction s as [|[x c] s IH]; intros b ks; [reflexivity|]. destruct s as [|y s]; [reflexivity|].
  change (pad ((x, c) :: y :: s) b) with ((x, c) :: pad (y :: s) b). cbn [src_kinds]. destruct ks as [|k ks]; [reflexivity|]. fold (src_kinds (y :: s) ks). rewrite IH. reflexivity.
Qed.
Lemma pad_ok : forall s b z, is_blank b -> b <> [] -> src_ok s -> src_ok z -> src_ok (pad s b ++ z).
Proof.
  induction s as [|[x c] s IH]; intros b z B N H Z; [exact Z|]. destruct s as [|[y c'] s].
  - cbn [pad app src_ok] in *. destruct H as (A & B' & _ & _). split; [exact A|]. split; [unfold is_blank in *; rewrite forallb_app, B', B; reflexivity|].
    split; [|exact Z]. intro E. apply app_eq_nil in E. destruct E; contradiction.
  - assert (H' := H). destruct H as (A & B' & F & R). change (pad ((x, c) :: (y, c') :: s) b) with ((x, c) :: pad ((y, c') :: s) b). cbn [app src_ok]. split; [exact A|]. split; [exact B'|].
    split; [|apply (IH b z B N R Z)]. intro E. specialize (F E). destruct s; exact F.
Qed.
Definition framed (s : source) : source :=
  match s with
  | [] => [(LxOpen, []); (LxWord $"do", [c_space; c_nl]); (LxClose, [])]
  | _ => (LxOpen, []) :: (LxWord $"do", [c_space]) :: pad s [c_nl] ++ [(LxClose, [])]
  end.
Lemma src_text_app : forall a b, src_text (a ++ b) = src_text a ++ src_text b.
Proof. induction a as [|[x c] a IH]; intro b; [reflexivity|]. cbn [app src_text]. rewrite IH, <- !app_assoc. reflexivity. Qed.
Lemma framed_text : forall s, src_text (framed s) = decorate (src_text s).
Proof.
  intros [|y s]; [reflexivity|]. unfold framed. cbn [src_text lx_text]. rewrite src_text_app, pad_text by discriminate. unfold decorate. cbn. rewrite <- !app_assoc. reflexivity.
Qed.
Lemma framed_ok : forall s, src_ok s -> src_ok (framed s).
Proof.
  intros [|y s] H.
  - cbn [framed src_ok]. repeat split; try discriminate; auto.
  - unfold framed. split; [exact I|]. split; [reflexivity|]. split; [destruct (pad (y :: s) [c_nl] ++ [(LxClose, [])]) as [|[[] ?] ?]; exact (fun _ => I)|].
    split; [split; [discriminate|reflexivity]|]. split; [reflexivity|]. split; [discriminate|]. apply pad_ok; [reflexivity|discriminate|exact H|]. repeat split.
Qed.
Lemma do_symbol : symbol_text $"do".
Proof. split; [split; [discriminate|reflexivity]|]. right. right. split; [reflexivity|vm_compute; intuition discriminate]. Qed.
Lemma framed_kinds : forall s ks, src_kinds s ks -> src_kinds (framed s) (open_kind :: ((TkSymbol, TvStr $"do") :: ks) ++ [close_kind]).
Proof.
  intros [|y s] ks H.
  - destruct ks; [|contradiction]. cbn [framed src_kinds app]. repeat split. apply wm_symbol, do_symbol.
  - unfold framed. cbn [app]. split; [reflexivity|]. split; [apply wm_symbol, do_symbol|]. apply src_kinds_app_intro; [apply pad_kinds, H|]. split; [reflexivity|exact I].
Qed.

(** ** Running a script *)
Lemma copied : forall st i l ps, vec_at st l = Some ps -> copy_ptr (P i (OList l)) st = (Val (P (st_nid st) (OList (st_nloc st))), with_nid (Pos.succ (st_nid st)) (more_vec ps st)).
Proof. intros st i l ps E. unfold copy_ptr, bind, lift. cbn [deref]. unfold obj_copy, bind, reads, get_vec. unfold vec_at in E. rewrite E. reflexivity. Qed.
Lemma set_entered : forall st sc tr m ts A (k : M A), scope_at st main_sid = Some sc ->
  (mod_scope main_sid (set_tokens ts) ;; k) (with_scopes (PositiveMap.add main_sid (set_tracing tr (set_module m sc)) (PositiveMap.add main_sid (set_module m sc) (st_scopes st))) st) = k (entered st tr m ts).
Proof.
  intros st sc tr m ts A k E. unfold bind at 1, mod_scope at 1. unfold bind at 1, reads, get_scope. cbn [st_scopes with_scopes]. rewrite find_add, Pos.eqb_refl. unfold put_scope. cbv beta iota.
  f_equal. unfold entered. rewrite E. cbn [st_scopes with_scopes]. rewrite !add_twice. reflexivity.
Qed.
Lemma mod_main : forall st sc f A (k : M A), scope_at st main_sid = Some sc ->
  (mod_scope main_sid f ;; k) st = k (with_scopes (PositiveMap.add main_sid (f sc) (st_scopes st)) st).
Proof. intros st sc f A k E. unfold bind at 1, mod_scope at 1, bind at 1, reads, get_scope. unfold scope_at in E. rewrite E. reflexivity. Qed.
Lemma bind_val : forall A B (m : M A) (k : A -> M B) st a st1, m st = (Val a, st1) -> bind m k st = k a st1.
Proof. intros A B m k st a st1 E. unfold bind. rewrite E. reflexivity. Qed.
Lemma script_steps : forall R st sc tr modname code ts tree p1 st1 p2 st2 p3 st3 p4 st4, scope_at st main_sid = Some sc ->
  tokenize (decorate code) 4 = Val ts -> parse_toplevel modname ts = Val tree -> load_tree tree (entered st tr modname ts) = (Val p1, st1) ->
  copy_ptr p1 st1 = (Val p2, st2) -> r_expand R p2 main_sid st2 = (Val p3, st3) -> copy_ptr p3 st3 = (Val p4, st4) ->
  lisp_eval R tr false code main_sid modname st = r_eval R p4 main_sid st4.
Proof.
  intros R st sc tr modname code ts tree p1 st1 p2 st2 p3 st3 p4 st4 SC TE PE LE C1 E3 C3. unfold lisp_eval. rewrite (mod_main _ _ _ _ _ SC).
  rewrite (mod_main _ (set_module modname sc)) by (unfold scope_at; cbn [st_scopes with_scopes]; rewrite find_add, Pos.eqb_refl; reflexivity).
  rewrite (bind_val _ _ (lift (tokenize (decorate code) 4)) _ _ ts _) by (unfold lift; rewrite TE; reflexivity).
  etransitivity; [exact (set_entered st sc tr modname ts _ _ SC)|].
  rewrite (bind_val _ _ (lift (parse_toplevel modname ts)) _ _ tree _) by (unfold lift; rewrite PE; reflexivity).
  rewrite (bind_val _ _ _ _ _ _ _ LE), (bind_val _ _ _ _ _ _ _ C1), (bind_val _ _ _ _ _ _ _ E3), (bind_val _ _ _ _ _ _ _ C3). reflexivity.
Qed.
Lemma parse_split : forall m code k tree, parse m code k = Val tree -> exists ts, tokenize code k = Val ts /\ parse_toplevel m ts = Val tree.
Proof. intros m code k tree H. unfold parse in H. destruct (tokenize code k) as [ts|?|?|?|]; try discriminate. exists ts. split; [reflexivity|exact H]. Qed.
Lemma entered_numbered : forall st tr m ts, numbered st -> numbered (entered st tr m ts).
Proof.
  intros st tr m ts N. unfold entered. destruct (scope_at st main_sid) as [sc|] eqn:E; [|exact N]. intros u x X. unfold scope_at in X. cbn [st_scopes with_scopes st_nsid] in *. rewrite find_add in X.
  destruct (Pos.eqb_spec u main_sid) as [-> |NE]; [apply (N _ _ E)|apply (N _ _ X)].
Qed.
Lemma script_reads : forall st tr modname s l ks, heap_numbered st -> scope_exists st main_sid -> src_ok s -> src_kinds s ks -> writes_all l ks ->
  (forall t, read_as (script_datum l) t -> macro_free st main_sid t) ->
  exists ts t p st1, kinds_of (Val ts) = Val (open_kind :: ((TkSymbol, TvStr $"do") :: ks) ++ [close_kind]) /\
    read_as (script_datum l) t /\ code_at st1 p (nil_emptied t) /\ only_adds (entered st tr modname ts) st1 /\ heap_numbered st1 /\ (numbered st -> numbered st1) /\
    forall o st', runs tr false (src_text s) modname st o st' <-> evals p main_sid st1 o st'.
Proof.
  intros st tr modname s l ks HN (sc & SC) OK KS W FREE.
  assert (KF := framed_kinds s ks KS). assert (WF : writes (EList (EAtom (TkSymbol, TvStr $"do") :: l)) (open_kind :: ((TkSymbol, TvStr $"do") :: ks) ++ [close_kind])).
  { apply w_list. change ((TkSymbol, TvStr $"do") :: ks) with ([(TkSymbol, TvStr $"do")] ++ ks). apply ws_cons; [apply w_atom; reflexivity|exact W]. }
  assert (TK := source_kinds 4 (framed s) _ (framed_ok s OK) KF).
  destruct (parse_source_list modname 4 (framed s) (EAtom (TkSymbol, TvStr $"do") :: l) [] (open_kind :: ((TkSymbol, TvStr $"do") :: ks) ++ [close_kind]) [] (framed_ok s OK)) as (tree & PE & ER); [rewrite app_nil_r; exact KF|exact WF|reflexivity|reflexivity|].
  rewrite framed_text in TK, PE. destruct (parse_split _ _ _ _ PE) as (ts & TE & PT). rewrite TE in TK.
  assert (DO : datum_ok (erase tree)). { rewrite ER. apply (proj1 writes_ok _ _ WF). eapply kinds_meant, KF. }
  set (st0 := entered st tr modname ts). assert (H0 : heap_numbered st0) by (apply entered_heap, HN).
  destruct (load_code tree st0 H0 DO) as (i & o & t & st1 & LE & C1 & RD & A1 & H1). rewrite ER in RD. assert (FT := FREE t RD).
  change (datum_of (EList (EAtom (TkSymbol, TvStr $"do") :: l))) with (script_datum l) in RD.
  inversion RD as [|ds ts' RS]; subst. inversion C1 as [|i' l' ps ? VE CS]; subst.
  destruct (adds_list ps st1 H1) as (A2 & H2 & V2). set (st2 := with_nid (Pos.succ (st_nid st1)) (more_vec ps st1)) in *.
  assert (C2 : code_at st2 (P (st_nid st1) (OList (st_nloc st1))) (CList ts')) by (eapply ca_list; [exact V2|eapply forall2_adds; [exact A2|exact CS]]).
  assert (A02 := adds_trans _ _ _ A1 A2).
  assert (F2 : macro_free st2 main_sid (CList ts')).
  { eapply adds_free; [exact A02|]. eapply free_by; [| |exact FT]; [intros; apply entered_var|intros u; apply entered_exists]. }
  destruct (expand_free main_sid _ st2 _ H2 C2 (proj1 read_parsed _ _ RD) F2) as (i3 & o3 & st3 & (n3 & E3) & C3 & A3 & H3).
  assert (C3' := C3). cbn [nil_emptied] in C3'. inversion C3' as [|i3' l3 ps3 ? V3 CS3]; subst.
  destruct (adds_list ps3 st3 H3) as (A4 & H4 & V4). set (st4 := with_nid (Pos.succ (st_nid st3)) (more_vec ps3 st3)) in *.
  exists ts, (CList ts'), (P (st_nid st3) (OList (st_nloc st3))), st4. split; [exact TK|]. split; [exact RD|].
  split; [eapply ca_list; [exact V4|eapply forall2_adds; [exact A4|exact CS3]]|]. split; [eapply adds_trans; [exact A02|eapply adds_trans; eassumption]|]. split; [exact H4|].
  split.
  { intro N0. assert (N1 : numbered st1). { pose proof (FrameProofs.frm_load_tree main_sid tree st0 (entered_numbered _ _ _ _ N0)) as K. rewrite LE in K. apply K. }
    assert (N2 : numbered st2) by (intros u x X; apply (N1 u x X)). assert (N3 : numbered st3). { pose proof (FrameProofs.fr_expand _ (FrameProofs.frm_run n3) (P (st_nid st1) (OList (st_nloc st1))) main_sid st2 N2) as K. rewrite (E3 n3 (Nat.le_refl _)) in K. apply K. }
    intros u x X. apply (N3 u x X). }
  intros o st'. apply (ends_from _ _ (fun n => r_eval (run n) _ main_sid) st st4 n3); [apply mono_script|apply mono_eval|].
  intros n L. exact (script_steps (run n) st sc tr modname _ ts tree _ _ _ _ _ _ _ _ SC TE PT LE (copied _ _ _ _ VE) (E3 n L) (copied _ _ _ _ V3)).
Qed.

Lemma script_runs : forall st tr modname s l ks, heap_numbered st -> scope_exists st main_sid -> src_ok s -> src_kinds s ks -> writes_all l ks ->
  (forall t, read_as (script_datum l) t -> macro_free st main_sid t) ->
  exists ts t p st1, kinds_of (Val ts) = Val (open_kind :: ((TkSymbol, TvStr $"do") :: ks) ++ [close_kind]) /\
    read_as (script_datum l) t /\ code_at st1 p (nil_emptied t) /\ only_adds (entered st tr modname ts) st1 /\ heap_numbered st1 /\
    forall o st', runs tr false (src_text s) modname st o st' <-> evals p main_sid st1 o st'.
Proof.
  intros st tr modname s l ks HN SE OK KS W FREE. destruct (script_reads st tr modname s l ks HN SE OK KS W FREE) as (ts & t & p & st1 & A & B & C & D & E & _ & R).
  exists ts, t, p, st1. auto 10.
Qed.

(** ** Writing values *)
Fixpoint words_of (ts : list code) : str :=
  match ts with [] => [] | [t] => written t | t :: ts' => written t ++ $" " ++ words_of ts' end.
Lemma written_list : forall ts, written (CList ts) = $"(" ++ words_of ts ++ $")".
Proof. reflexivity. Qed.
Lemma readable_list : forall ts, readable (CList ts) <-> Forall readable ts.
Proof.
  intro ts. cbn [readable]. induction ts as [|t ts IH]; [split; constructor|]. split; [intros (A & B); constructor; [exact A|apply IH, B]|intro H; inversion H; subst; split; [assumption|apply IH; assumption]].
Qed.
Definition atom_lexeme (v : variant) : lexeme := match v_ty v with TString => LxString (atom_text v) (atom_text v) | _ => LxWord (atom_text v) end.
Fixpoint data_source (t : code) (b : str) : source :=
  match t with
  | CAtom v => [(atom_lexeme v, b)]
  | CList ts => (LxOpen, []) :: (fix go (ts : list code) : source :=
      match ts with [] => [] | [t] => data_source t [] | t :: ts' => data_source t [c_space] ++ go ts' end) ts ++ [(LxClose, b)]
  end.
Fixpoint data_sources (ts : list code) : source :=
  match ts with [] => [] | [t] => data_source t [] | t :: ts' => data_source t [c_space] ++ data_sources ts' end.
Lemma source_list : forall ts b, data_source (CList ts) b = (LxOpen, []) :: data_sources ts ++ [(LxClose, b)].
Proof. reflexivity. Qed.
Lemma source_text : forall t b, src_text (data_source t b) = written t ++ b.
Proof.
  intro t. induction t as [v|ts IH] using code_tree_ind; intro b.
  - cbn [data_source src_text written]. rewrite app_nil_r. unfold atom_lexeme, written_atom. destruct (v_ty v); reflexivity.
  - rewrite source_list, written_list. cbn [src_text]. rewrite src_text_app. cbn [src_text lx_text].
    assert (E : src_text (data_sources ts) = words_of ts).
    { induction ts as [|t [|u ts] IHt]; [reflexivity|inversion IH as [|? ? H1]; subst; cbn [data_sources words_of]; rewrite H1; apply app_nil_r|].
      inversion IH as [|? ? H1 H2]; subst. change (data_sources (t :: u :: ts)) with (data_source t [c_space] ++ data_sources (u :: ts)). rewrite src_text_app, H1, IHt by exact H2.
      change (words_of (t :: u :: ts)) with (written t ++ $" " ++ words_of (u :: ts)). rewrite <- app_assoc. reflexivity. }
    rewrite E, app_nil_r. cbn. rewrite <- app_assoc. reflexivity.
Qed.
Definition closes_next (b : str) (z : source) : Prop := b = [] -> match z with [] => True | (y, _) :: _ => y = LxClose end.
Lemma bare_body : forall t, bare_text t -> str_body t t.
Proof.
  intro t. unfold bare_text. induction t as [|c t IH]; intro H; [constructor|]. cbn [forallb] in H. apply andb_prop in H. destruct H as (A & B). apply andb_prop in A. destruct A as (A & D). apply andb_prop in A. destruct A as (A & E).
  apply sb_raw; [exact A| | |apply IH, B]; intros ->; discriminate.
Qed.
Lemma lexeme_ok : forall v, readable_atom v -> lx_ok (atom_lexeme v).
Proof.
  intros v H. unfold atom_lexeme, atom_text. destruct H as [(z & (T & V) & F)|[(b & (T & V))|[(t & (T & V) & S)|(t & (T & V) & S)]]]; rewrite T, V; cbn [lx_ok].
  - eapply int_text_word, z_to_string_int_text. - destruct b; (split; [discriminate|reflexivity]). - apply S. - apply bare_body, S.
Qed.
Lemma lexeme_cases : forall v (b : str) z, closes_next b z -> b = [] ->
  match atom_lexeme v, z with
  | LxWord _, (y, _) :: _ => y = LxOpen \/ y = LxClose \/ (exists c, y = LxComment c)
  | (LxQuote | LxBackquote | LxComma), (y, _) :: _ => starts_at y = false
  | _, _ => True
  end.
Proof. intros v b z C E. specialize (C E). unfold atom_lexeme. destruct z as [|[y c] z]; [destruct (v_ty v); exact Logic.I|]. destruct (v_ty v); auto. Qed.
Lemma source_ok : forall t, readable t -> forall b z, is_blank b -> closes_next b z -> src_ok z -> src_ok (data_source t b ++ z).
Proof.
  intro t. induction t as [v|ts IH] using code_tree_ind; intros R b z B C Z.
  - cbn [data_source app src_ok]. split; [apply lexeme_ok, R|]. split; [exact B|]. split; [apply lexeme_cases, C|exact Z].
  - apply readable_list in R. rewrite source_list. cbn [app]. split; [exact Logic.I|]. split; [reflexivity|]. split; [intros _; destruct ((data_sources ts ++ [(LxClose, b)]) ++ z) as [|[[] ?] ?]; exact Logic.I|].
    rewrite <- app_assoc. cbn [app]. assert (ZC : src_ok ((LxClose, b) :: z)). { split; [exact Logic.I|]. split; [exact B|]. split; [intros _; destruct z as [|[[] ?] ?]; exact Logic.I|exact Z]. }
    revert R. induction ts as [|t [|u ts] IHt]; intro R; [exact ZC| |]; inversion IH as [|? ? H1 H2]; inversion R as [|? ? R1 R2]; subst.
    + cbn [data_sources]. apply H1; [exact R1|reflexivity|intros _; reflexivity|exact ZC].
    + change (data_sources (t :: u :: ts)) with (data_source t [c_space] ++ data_sources (u :: ts)). rewrite <- app_assoc. apply H1; [exact R1|reflexivity|intro X; discriminate|apply IHt; assumption].
Qed.
Definition atom_kind (v : variant) : toktype * tokval :=
  match v_ty v, v_val v with
  | TInt, Some (OInt z) => (TkInt, TvInt z)
  | TBool, Some (OBool b) => (if b then TkTrue else TkFalse, TvBool b)
  | TString, Some (OString t) => (TkString, TvStr t)
  | _, Some (OString t) => (TkSymbol, TvStr t)
  | _, _ => (TkNil, TvInt 0)
  end.
Fixpoint data_expr (t : code) : expr := match t with CAtom v => EAtom (atom_kind v) | CList ts => EList (map data_expr ts) end.
Lemma kind_ok : forall v, readable_atom v -> lx_means (atom_lexeme v) (atom_kind v) /\ atom_type (fst (atom_kind v)) = true.
Proof.
  intros v H. unfold atom_lexeme, atom_kind, atom_text. destruct H as [(z & (T & V) & F)|[(b & (T & V))|[(t & (T & V) & S)|(t & (T & V) & S)]]]; rewrite T, V; cbn [lx_means].
  - split; [|reflexivity]. apply wm_int; [apply z_to_string_int_text|unfold fits in F; lia]. - destruct b; (split; [|reflexivity]); [apply wm_true|apply wm_false]; right; reflexivity.
  - split; [apply wm_symbol, S|reflexivity]. - split; reflexivity.
Qed.
Lemma source_writes : forall t, readable t -> exists ks, writes (data_expr t) ks /\ forall b, src_kinds (data_source t b) ks.
Proof.
  intro t. induction t as [v|ts IH] using code_tree_ind; intro R.
  - destruct (kind_ok v R) as (A & B). exists [atom_kind v]. split; [apply w_atom, B|]. intro b. split; [exact A|exact Logic.I].
  - apply readable_list in R. assert (X : exists ks, writes_all (map data_expr ts) ks /\ src_kinds (data_sources ts) ks).
    { revert R. induction ts as [|t [|u ts] IHt]; intro R; [exists []; split; [constructor|exact Logic.I]| |]; inversion IH as [|? ? H1 H2]; inversion R as [|? ? R1 R2]; subst; destruct (H1 R1) as (ks & W & K).
      - exists (ks ++ []). split; [cbn [map]; apply ws_cons; [exact W|constructor]|rewrite app_nil_r; apply K].
      - destruct (IHt H2 R2) as (ks' & W' & K'). exists (ks ++ ks'). split; [cbn [map] in *; apply ws_cons; assumption|].
        change (data_sources (t :: u :: ts)) with (data_source t [c_space] ++ data_sources (u :: ts)). apply src_kinds_app_intro; [apply K|exact K']. }
    destruct X as (ks & W & K). exists (open_kind :: ks ++ [close_kind]). split; [cbn [data_expr]; apply w_list, W|]. intro b. rewrite source_list. split; [reflexivity|].
    apply src_kinds_app_intro; [exact K|]. split; [reflexivity|exact Logic.I].
Qed.

(** ** What is read is the same data *)
Lemma read_same : forall t, readable t -> forall u, read_as (datum_of (data_expr t)) u -> same_code t u.
Proof.
  intro t. induction t as [v|ts IH] using code_tree_ind; intros R u H.
  - cbn [data_expr datum_of] in H. inversion H as [? w (_ & A)|]; subst. unfold atom_kind in A.
    destruct R as [(z & (T & V) & F)|[(b & (T & V))|[(t & (T & V) & S)|(t & (T & V) & S)]]]; rewrite T, V in A; [| destruct b| | ]; destruct A as (X & Y); apply sc_atom; congruence.
  - apply readable_list in R. cbn [data_expr datum_of] in H. inversion H as [|? us RS]; subst. apply sc_list. clear H. revert us RS.
    induction ts as [|t ts IHt]; intros us RS; inversion RS as [|? ? u us' R1 R2]; subst; [constructor|]. inversion IH as [|? ? H1 H2]; inversion R as [|? ? R3 R4]; subst. constructor; [apply H1; assumption|apply IHt; assumption].
Qed.
Lemma same_all : (forall t u, same_code t u -> (readable t -> readable u) /\ written u = written t /\ code_text u = code_text t /\ (no_text t -> no_text u) /\ forall st s, macro_free st s t -> macro_free st s u) /\
  (forall ts us, same_codes ts us -> (Forall readable ts -> Forall readable us) /\ words_of us = words_of ts /\ (forall acc, join_text acc us = join_text acc ts) /\
     (forall st s, Forall (macro_free st s) ts -> Forall (macro_free st s) us) /\ (ts = [] <-> us = []) /\ option_map code_text (hd_error us) = option_map code_text (hd_error ts)).
Proof.
  apply same_both.
  - intros v w T V. cbn [readable written code_text no_text macro_free]. unfold readable_atom, written_atom, atom_text, is_int, is_bool, is_sym, is_str. rewrite T, V. auto 10.
  - intros ts us _ (A & B & C & D & E & F). rewrite !readable_list, !written_list, !text_list, B, C. split; [exact A|]. split; [reflexivity|]. split; [reflexivity|]. split; [exact (fun x => x)|].
    intros st s. destruct us as [|u us]; destruct ts as [|t ts]; try (exact (fun x => x)); [destruct E as (_ & E); discriminate (E eq_refl)|destruct E as (E & _); discriminate (E eq_refl)|].
    rewrite !free_list. intros (X & Y). cbn [hd_error option_map] in F. injection F as F. rewrite F. split; [exact X|apply D, Y].
  - split; [auto|]. split; [reflexivity|]. split; [reflexivity|]. split; [auto|]. split; [tauto|reflexivity].
  - intros t ts u us _ (A & B & C & D & E) _ (A' & B' & C' & D' & E' & F'). split; [|split; [|split; [|split; [|split]]]].
    + intro H. inversion H; subst. constructor; auto.
    + destruct us as [|u' us]; destruct ts as [|t' ts]; try (destruct E' as (X & Y)); [exact B|discriminate (Y eq_refl)|discriminate (X eq_refl)|].
      change (words_of (u :: u' :: us)) with (written u ++ $" " ++ words_of (u' :: us)). change (words_of (t :: t' :: ts)) with (written t ++ $" " ++ words_of (t' :: ts)). congruence.
    + intro acc. unfold join_text in *. cbn [fold_left]. rewrite C. apply C'.
    + intros st s H. inversion H; subst. constructor; auto.
    + split; discriminate.
    + cbn. congruence.
Qed.
Lemma readable_no_nil : forall t, readable t -> no_nil t /\ parsed t.
Proof.
  intro t. induction t as [v|ts IH] using code_tree_ind; intro R.
  - cbn [no_nil parsed]. unfold parsed_atom. destruct R as [(z & (T & V) & F)|[(b & (T & V))|[(t & (T & V) & S)|(t & (T & V) & S)]]]; (split; [congruence|]); unfold is_int, is_bool, is_sym, is_str; eauto 10.
  - apply readable_list in R. rewrite no_nil_list, parsed_list. rewrite !Forall_forall in *. split; intros x X; apply IH; auto.
Qed.

(** ** Printing *)
Lemma written_some : forall t, readable t -> written t <> [].
Proof.
  intros [v|ts] R; [|rewrite written_list; discriminate]. cbn [written]. unfold written_atom, atom_text.
  destruct R as [(z & (T & V) & F)|[(b & (T & V))|[(t & (T & V) & S)|(t & (T & V) & S)]]]; rewrite T, V; [|destruct b; discriminate|apply S|discriminate].
  apply (int_text_word _ z (z_to_string_int_text z)).
Qed.
Scheme data_mut := Minimality for data_at Sort Prop with datas_mut := Minimality for datas_at Sort Prop.
Combined Scheme data_both from data_mut, datas_mut.
Lemma data_det : forall st, (forall p t, data_at st p t -> forall t', data_at st p t' -> t = t') /\
  (forall ps ts, datas_at st ps ts -> forall ts', datas_at st ps ts' -> ts = ts').
Proof.
  intro st. apply data_both.
  - intros i v N t' H. inversion H as [| |? ? ? ? ? (T & _)]; subst; [reflexivity|congruence].
  - intros i l ps ts E H IH t' K. inversion K as [|? ? ps' ts' E' H'|]; subst. assert (ps' = ps) by congruence. subst. f_equal. apply IH, H'.
  - intros i v l ps ts (T & V & E) H IH t' K. inversion K as [? ? N| |? ? l' ps' ts' (T' & V' & E') H']; subst; [congruence|]. assert (l' = l) by congruence. subst. assert (ps' = ps) by congruence. subst. f_equal. apply IH, H'.
  - intros ts' H. inversion H. reflexivity.
  - intros p ps t ts H IH HS IHS ts' K. inversion K; subst. f_equal; auto.
Qed.
Lemma datas_nth : forall st ps ts, datas_at st ps ts -> forall t, In t ts -> exists p, In p ps /\ data_at st p t.
Proof.
  intros st ps ts H. induction H as [|p ps t ts H HS IH].
  - intros t [].
  - intros u [<-|I]; [exists p; split; [left; reflexivity|exact H]|]. destruct (IH u I) as (q & J & K). exists q. split; [right; exact J|exact K].
Qed.
Lemma data_list : forall st p ts, data_at st p (CList ts) -> exists l ps, vec_at st l = Some ps /\ datas_at st ps ts /\ forall i, data_at st (P i (OList l)) (CList ts).
Proof.
  intros st p ts H. inversion H as [|i l ps ? E HS|i v l ps ? (T & V & E) HS]; subst; exists l, ps; (split; [exact E|split; [exact HS|]]); intro j; eapply dt_code; eassumption.
Qed.
Lemma data_path : forall st t p, data_at st p t -> exists ls, length ls = cheight t /\ NoDup ls /\
  Forall (fun l => exists i u, data_at st (P i (OList l)) u /\ (csize u <= csize t)%nat) ls.
Proof.
  intros st t. induction t as [v|ts IH] using code_tree_ind; intros p H.
  - exists []. repeat split; constructor.
  - destruct (data_list _ _ _ H) as (l & ps & E & HS & HL). rewrite cheight_list. destruct ts as [|t0 ts0].
    + exists [l]. split; [reflexivity|]. split; [constructor; [intros []|constructor]|]. constructor; [|constructor]. exists 1%positive, (CList []). split; [apply HL|lia].
    + destruct (height_in (t0 :: ts0)) as (t & I & ->); [discriminate|]. rewrite Forall_forall in IH. destruct (datas_nth _ _ _ HS t I) as (q & _ & HQ).
      destruct (IH t I q HQ) as (ls & L & ND & F). exists (l :: ls). split; [cbn [length]; congruence|]. assert (SZ := size_in _ _ I). rewrite Forall_forall in F. split.
      * constructor; [|exact ND]. intro X. destruct (F l X) as (j & u & K & S). assert (u = CList (t0 :: ts0)); [|subst; lia]. eapply data_det; [exact K|apply HL].
      * constructor; [exists 1%positive, (CList (t0 :: ts0)); split; [apply HL|lia]|]. apply Forall_forall. intros m X. destruct (F m X) as (j & u & K & S). exists j, u. split; [exact K|lia].
Qed.
Lemma data_height : forall st p t, heap_numbered st -> data_at st p t -> (cheight t <= Pos.to_nat (st_nloc st))%nat.
Proof.
  intros st p t (HN & _) H. destruct (data_path _ _ _ H) as (ls & <- & ND & F).
  assert (X : (length (map Pos.to_nat ls) <= length (seq 0 (Pos.to_nat (st_nloc st))))%nat); [|rewrite map_length, seq_length in X; exact X]. apply NoDup_incl_length.
  - apply Injective_map_NoDup; [|exact ND]. intros a b E. apply Pos2Nat.inj, E.
  - intros x X. apply in_map_iff in X. destruct X as (l & <- & I). rewrite Forall_forall in F. destruct (F l I) as (i & u & K & _).
    inversion K as [|? ? ps us E|]; subst. apply HN in E. apply in_seq. lia.
Qed.
Lemma atom_cont : forall v n st, readable_atom v -> show (S (S (S (S n)))) st (ShCont (OVar v)) = Val (written_atom v).
Proof.
  intros v n st H. unfold written_atom, atom_text. cbn [show]. unfold is_ty. destruct v as [ty vl uq tk]. cbn [v_ty v_val] in *.
  destruct H as [(z & (T & V) & F)|[(b & (T & V))|[(t & (T & V) & S)|(t & (T & V) & S)]]]; cbn [v_ty v_val] in *; subst; reflexivity.
Qed.
Definition joined (acc : str) (ts : list code) : str :=
  match ts with [] => acc | _ => match acc with [] => words_of ts | _ => acc ++ $" " ++ words_of ts end end.
Lemma show_cont : forall st, (forall p t, data_at st p t -> readable t -> forall n, (4 * cheight t + 4 <= n)%nat -> exists o, deref p = Val o /\ show n st (ShCont o) = Val (written t)) /\
  (forall ps ts, datas_at st ps ts -> Forall readable ts -> forall n acc, (4 * cheights ts + 4 <= n)%nat ->
     join_out $" " (fun p => let? o := deref p in show n st (ShCont o)) ps acc = Val (joined acc ts)).
Proof.
  intro st. apply data_both.
  - intros i v N R n L. exists (OVar v). split; [reflexivity|]. destruct n as [|[|[|[|n]]]]; cbn in L; try lia. apply atom_cont, R.
  - intros i l ps ts E HS IH R n L. exists (OList l). split; [reflexivity|]. rewrite cheight_list in L. destruct n as [|n]; [lia|]. rewrite written_list.
    cbn [show]. unfold get_vec. unfold vec_at in E. rewrite E. cbn [obind]. rewrite IH; [destruct ts; reflexivity|apply readable_list, R|lia].
  - intros i v l ps ts (T & V & E) HS IH R n L. exists (OVar v). split; [reflexivity|]. rewrite cheight_list in L. destruct n as [|[|[|[|n]]]]; try lia. rewrite written_list.
    cbn [show]. unfold is_ty. rewrite T, V. change (ltype_eqb TList TString) with false. cbv iota. unfold get_vec. unfold vec_at in E. rewrite E. cbn [obind]. rewrite IH; [destruct ts; reflexivity|apply readable_list, R|lia].
  - reflexivity.
  - intros p ps t ts H IH HS IHS R n acc L. inversion R as [|? ? R1 R2]; subst. cbn [cheights fold_right] in L. fold (cheights ts) in L.
    destruct (IH R1 n) as (o & D & S); [lia|]. cbn [join_out]. rewrite D. cbn [obind]. rewrite S. cbn [obind]. rewrite IHS by (auto; lia). f_equal.
    assert (N := written_some t R1). destruct ts as [|u ts].
    + cbn [joined words_of]. destruct acc; [reflexivity|]. rewrite <- app_assoc. reflexivity.
    + unfold joined. change (words_of (t :: u :: ts)) with (written t ++ $" " ++ words_of (u :: ts)). destruct acc as [|a acc]; [destruct (written t) eqn:W; [congruence|reflexivity]|].
      cbn [app]. rewrite <- !app_assoc. reflexivity.
Qed.
Lemma value_printed : forall st v t, heap_numbered st -> is_data st v t -> readable t -> no_text t -> var_str v st = Val (written t).
Proof.
  intros st v [w|ts] HN H R NT.
  - cbn [is_data] in H. subst w. unfold var_str, show_fuel. cbn [written no_text] in *. unfold written_atom, atom_text. destruct v as [ty vl uq tk]. cbn [v_ty v_val readable] in *. unfold readable_atom in R.
    destruct R as [(z & (T & V) & F)|[(b & (T & V))|[(t & (T & V) & S)|(t & (T & V) & S)]]]; cbn [v_ty v_val] in *; subst; try congruence; reflexivity.
  - destruct H as (l & es & (T & V & E) & CS). assert (C : data_at st (P 1 (OList l)) (CList ts)) by (eapply dt_code; eassumption). assert (B := data_height _ _ _ HN C).
    unfold var_str. replace (show_fuel st) with (S (5 + 5 * Pos.to_nat (st_nloc st)))%nat by reflexivity. cbn [show]. rewrite T, V.
    destruct (proj1 (show_cont st) _ _ C R (5 + 5 * Pos.to_nat (st_nloc st))%nat) as (o & D & S); [lia|]. injection D as <-. exact S.
Qed.
Lemma code_data : forall st, (forall p t, code_at st p t -> readable t -> data_at st p t) /\ (forall ps ts, codes_at st ps ts -> Forall readable ts -> datas_at st ps ts).
Proof.
  intro st. apply code_at_both.
  - intros i v R. apply dt_atom. destruct R as [(z & (T & V) & F)|[(b & (T & V))|[(t & (T & V) & S)|(t & (T & V) & S)]]]; congruence.
  - intros i l ps ts E HS IH R. eapply dt_code; [exact E|]. apply IH, readable_list, R.
  - intros _. constructor.
  - intros p ps t ts H IH HS IHS R. inversion R; subst. constructor; auto.
Qed.
Lemma holds_data : forall st v t, holds st v t -> readable t -> is_data st v t.
Proof.
  intros st v [w|ts] H R; [exact H|]. destruct H as (l & es & I & CS). exists l, es. split; [exact I|]. apply (proj2 (code_data st)); [exact CS|apply readable_list, R].
Qed.

(** ** Reading back *)
Lemma knows_inert : forall st name, In name [$"do"; $"quote"] -> scope_exists st main_sid -> knows st name -> inert st main_sid name.
Proof.
  intros st name IN SE ((_ & NM) & i & v & f & B & V & F). split.
  - right. exists i, v, f. split; [exact V|]. split; [exact F|]. destruct IN as [<-|[<-|[]]]; vm_compute in B; injection B as <-; reflexivity.
  - destruct NM as [NM|(j & ms & A & X & N)]; [left; exact NM|right]. exists j, ms. auto.
Qed.
Lemma knows_by : forall st st' name, (forall u k, var_at st' u k = var_at st u k) -> (forall u, scope_exists st u -> scope_exists st' u) -> knows st name -> knows st' name.
Proof.
  intros st st' name V X ((SE & NM) & i & v & f & B & VA & F). split.
  - split; [apply X, SE|]. rewrite V. destruct NM as [NM|(j & ms & A & Y & N)]; [left; exact NM|right]. exists j, ms. rewrite V. auto.
  - exists i, v, f. rewrite V. auto.
Qed.
Lemma knows_standard : forall st sc name, scope_at st main_sid = Some sc -> s_global sc = main_sid -> s_tracing sc = false -> knows st name -> standard st main_sid name.
Proof.
  intros st sc name SC G T ((SE & NM) & i & v & f & B & VA & F). exists f. split; [exact B|]. exists sc, sc, i, v. rewrite G. split; [exact SC|]. split; [exact SC|]. split; [exact T|].
  split; [split; [exact SE|exact NM]|]. split; [apply se_own; assumption|exact F].
Qed.
Lemma readable_emptied : forall d q u, no_nil u -> v_ty d <> TNil -> v_ty q <> TNil -> nil_emptied (CList [CAtom d; CList [CAtom q; u]]) = CList [CAtom d; CList [CAtom q; u]].
Proof.
  intros d q u N D Q. apply emptied_same. rewrite no_nil_list. constructor; [exact D|]. constructor; [|constructor]. rewrite no_nil_list. constructor; [exact Q|]. constructor; [exact N|constructor].
Qed.
Lemma read_back : forall st modname s t ks l, can_quote st -> readable t -> no_text t -> macro_free st main_sid t -> src_ok s -> src_kinds s ks -> writes_all l ks ->
  map datum_of l = [DList [DAtom (TkSymbol, TvStr $"quote"); datum_of (data_expr t)]] ->
  exists v st' t', runs false false (src_text s) modname st (Val (Some v)) st' /\ holds st' v t' /\ same_code t t' /\ var_str v st' = Val (written t) /\
    st_out st' = st_out st /\ forall u n, var_at st' u n = var_at st u n.
Proof.
  intros st modname s t ks l (HN & (sc & SC & G & IR) & KD & KQ) R NT FR OK KS W DL.
  assert (SE : scope_exists st main_sid) by (exists sc; exact SC).
  assert (SHAPE : forall c, read_as (script_datum l) c -> exists d q u, c = CList [CAtom d; CList [CAtom q; u]] /\ is_sym d $"do" /\ is_sym q $"quote" /\ same_code t u /\ (forall w, u = CAtom w -> v_unq w = UnqNone)).
  { intros c H. unfold script_datum in H. rewrite DL in H. inversion H as [|? ? H1]; subst. inversion H1 as [|? ? c1 ? H2 H3]; subst. inversion H2 as [? d (_ & D)|]; subst. cbn [fst snd] in D.
    inversion H3 as [|? ? c2 ? H4 H5]; subst. inversion H5; subst. inversion H4 as [|? ? H6]; subst. inversion H6 as [|? ? c3 ? H7 H8]; subst. inversion H7 as [? q (_ & Q)|]; subst.
    inversion H8 as [|? ? u ? H9 H10]; subst. inversion H10; subst. exists d, q, u. split; [reflexivity|]. split; [exact D|]. split; [exact Q|]. split; [apply read_same; assumption|].
    intros w ->. inversion H9 as [? ? (U & _)|]; subst. exact U. }
  destruct (script_runs st false modname s l ks HN SE OK KS W) as (ts & c & p & st1 & _ & RC & C1 & A1 & H1 & RUN).
  { intros c H. destruct (SHAPE c H) as (d & q & u & -> & (DT & DV) & (QT & QV) & SM & _). destruct (proj1 same_all _ _ SM) as (_ & _ & _ & _ & FU).
    rewrite free_list. assert (TD : code_text (CAtom d) = $"do") by (cbn [code_text]; unfold atom_text; rewrite DT, DV; reflexivity).
    assert (TQ : code_text (CAtom q) = $"quote") by (cbn [code_text]; unfold atom_text; rewrite QT, QV; reflexivity). rewrite TD.
    split; [apply knows_inert; [left; reflexivity|exact SE|exact KD]|]. constructor; [exact Logic.I|]. constructor; [|constructor]. rewrite free_list, TQ.
    split; [apply knows_inert; [right; left; reflexivity|exact SE|exact KQ]|]. constructor; [exact Logic.I|]. constructor; [apply FU, FR|constructor]. }
  destruct (SHAPE c RC) as (d & q & u & -> & D & Q & SM & UN). destruct (proj1 same_all _ _ SM) as (RU & WU & _ & NU & _). specialize (RU R). specialize (NU NT).
  destruct (readable_no_nil u RU) as (NN & _).
  rewrite readable_emptied in C1; [|exact NN|destruct D; congruence|destruct Q; congruence].
  inversion C1 as [|i l' ps ? V1 CS1]; subst. inversion CS1 as [|pd ps1 ? ? CD CS2]; subst. inversion CD as [jd ?|]; subst. inversion CS2 as [|pq ps2 ? ? CQ CS3]; subst. inversion CS3; subst.
  inversion CQ as [|iq lq psq ? VQ CSQ]; subst. inversion CSQ as [|pj psj ? ? CJ CSU]; subst. inversion CJ as [jq ?|]; subst. inversion CSU as [|x psx ? ? CX CN]; subst. inversion CN; subst.
  set (sc1 := set_tokens ts (set_tracing false (set_module modname sc))).
  assert (SC1 : scope_at st1 main_sid = Some sc1) by (rewrite (adds_scope _ _ _ A1), entered_scope, Pos.eqb_refl, SC; reflexivity).
  assert (VA1 : forall u0 n, var_at st1 u0 n = var_at st u0 n) by (intros; rewrite (adds_var _ _ _ _ A1); apply entered_var).
  assert (XA1 : forall u0, scope_exists st u0 -> scope_exists st1 u0) by (intros u0 H; eapply adds_exists; [exact A1|]; apply entered_exists, H).
  assert (SD : standard st1 main_sid $"do") by (eapply knows_standard; [exact SC1|exact G|reflexivity|eapply knows_by; eassumption]).
  assert (SQ : standard st1 main_sid $"quote") by (eapply knows_standard; [exact SC1|exact G|reflexivity|eapply knows_by; eassumption]).
  set (st2 := noted st1 main_sid (v_tok d)). assert (CX2 := proj1 (noted_code st1 main_sid (v_tok d)) _ _ CX). fold st2 in CX2.
  assert (FQ : form st2 (P iq (OList lq)) $"quote" (v_tok q) [x]). { exists jq, q. split; [left; exists iq, lq; split; [reflexivity|unfold st2; rewrite noted_vec; exact VQ]|]. split; [exact Q|reflexivity]. }
  assert (PX : plain x). { inversion CX as [ix w|]; subst; cbn [plain]; [|exact Logic.I]. left. rewrite (UN _ eq_refl). discriminate. }
  destruct (quote_gives st2 main_sid (P iq (OList lq)) (v_tok q) x u (noted_heap _ _ _ H1) FQ (noted_standard _ _ _ _ SQ) PX CX2) as (v & st3 & EV & HO & A3 & H3 & _).
  assert (SC3 : exists sc3, scope_at st3 main_sid = Some sc3 /\ s_inret sc3 = false).
  { rewrite (adds_scope _ _ _ A3), noted_scope. unfold st2. rewrite !noted_scope, SC1, Pos.eqb_refl. destruct (v_tok q); destruct (v_tok d); cbn [option_map]; eexists; (split; [reflexivity|exact IR]). }
  exists v, st3, u. split; [|split; [exact HO|split; [exact SM|split; [rewrite <- WU; apply value_printed; try assumption; apply holds_data; assumption|split]]]].
  - apply RUN. apply (do_value st1 main_sid (P i (OList l')) $"do" (v_tok d) [P iq (OList lq)]); [left; reflexivity| |exact SD|constructor; [exact Logic.I|constructor]|].
    + exists jd, d. split; [left; exists i, l'; split; [reflexivity|exact V1]|]. split; [exact D|reflexivity].
    + eapply sq_next; [exact EV|exact SC3|apply sq_end].
  - destruct A3 as (_ & _ & _ & O3 & _). destruct A1 as (_ & _ & _ & O1 & _). rewrite O3.
    assert (NO : forall a tk, st_out (noted a main_sid tk) = st_out a) by (intros a tk; unfold noted; destruct tk; [destruct (scope_at a main_sid)|]; reflexivity).
    rewrite NO. unfold st2. rewrite NO, O1. unfold entered. rewrite SC. reflexivity.
  - intros u0 n. rewrite (adds_var _ _ _ _ A3), noted_var. unfold st2. rewrite noted_var. apply VA1.
Qed.
Lemma lexeme_start : forall v, readable_atom v -> v_ty v <> TSym -> starts_at (atom_lexeme v) = false.
Proof.
  intros v H NS. unfold atom_lexeme, atom_text. destruct H as [(z & (T & V) & F)|[(b & (T & V))|[(t & (T & V) & S)|(t & (T & V) & S)]]]; rewrite T, V; [|destruct b; reflexivity|congruence|reflexivity].
  unfold starts_at. cbn [lx_text]. destruct (z_to_string_int_text z) as [ds N D|ds N D|ds N D]; [|reflexivity|reflexivity]. destruct ds as [|c ds]; [reflexivity|]. cbn [forallb] in D. apply andb_prop in D. destruct D as (D & _).
  destruct (Ascii.eqb_spec c c_at) as [->|X]; [discriminate|reflexivity].
Qed.
Lemma read_back_quote : forall st0 w t, heap_numbered st0 -> is_data st0 w t -> readable t -> no_text t -> exists txt, var_str w st0 = Val txt /\
  forall st modname code, can_quote st -> macro_free st main_sid t -> (code = $"(quote " ++ txt ++ $")" \/ code = $"'" ++ txt /\ (forall v, t = CAtom v -> v_ty v <> TSym)) ->
  exists v st' t', runs false false code modname st (Val (Some v)) st' /\ holds st' v t' /\ same_code t t' /\ var_str v st' = Val txt /\
    st_out st' = st_out st /\ forall u n, var_at st' u n = var_at st u n.
Proof.
  intros st0 w t H0 HO R NT. exists (written t). split; [apply value_printed; assumption|]. intros st modname code RD FR [->|(-> & NS)]; destruct (source_writes t R) as (ks & W & K).
  - set (s := (LxOpen, []) :: (LxWord $"quote", [c_space]) :: data_source t [] ++ [(LxClose, [])]).
    assert (E : src_text s = $"(quote " ++ written t ++ $")") by (unfold s; cbn [src_text]; rewrite src_text_app, source_text, app_nil_r; reflexivity). rewrite <- E.
    assert (QS : symbol_text $"quote") by exact (mark_symbol MQuote).
    eapply (read_back st modname s t (open_kind :: ((TkSymbol, TvStr $"quote") :: ks) ++ [close_kind]) [EList [EAtom (TkSymbol, TvStr $"quote"); data_expr t]]); try assumption.
    + split; [exact Logic.I|]. split; [reflexivity|]. split; [exact (fun _ => Logic.I)|]. split; [split; [discriminate|reflexivity]|]. split; [reflexivity|]. split; [discriminate|].
      apply source_ok; [exact R|reflexivity|intro; reflexivity|repeat split].
    + split; [reflexivity|]. split; [apply wm_symbol, QS|]. apply src_kinds_app_intro; [apply K|split; [reflexivity|exact Logic.I]].
    + rewrite <- (app_nil_r (open_kind :: _)). apply ws_cons; [|constructor]. apply w_list. change ((TkSymbol, TvStr $"quote") :: ks) with ([(TkSymbol, TvStr $"quote")] ++ ks).
      apply ws_cons; [apply w_atom; reflexivity|]. rewrite <- (app_nil_r ks). apply ws_cons; [exact W|constructor].
    + reflexivity.
  - set (s := (LxQuote, []) :: data_source t []).
    assert (E : src_text s = $"'" ++ written t) by (unfold s; cbn [src_text]; rewrite source_text, app_nil_r; reflexivity). rewrite <- E.
    eapply (read_back st modname s t ((TkQuote, TvStr $"'") :: ks) [EMark MQuote (data_expr t)]); try assumption.
    + split; [exact Logic.I|]. split; [reflexivity|]. split.
      * intros _. destruct t as [v|ts]; [apply lexeme_start; [exact R|apply NS; reflexivity]|reflexivity].
      * rewrite <- (app_nil_r (data_source t [])). apply source_ok; [exact R|reflexivity|intro; exact Logic.I|exact Logic.I].
    + split; [reflexivity|apply K].
    + rewrite <- (app_nil_r (_ :: ks)). apply ws_cons; [|constructor]. apply (w_mark MQuote); [destruct t; reflexivity|exact W].
    + reflexivity.
Qed.

(** ** Numbers, booleans and lists *)
Lemma plain_data_list : forall ts, plain_data (CList ts) <-> Forall plain_data ts.
Proof.
  intro ts. cbn [plain_data]. induction ts as [|t ts IH]; [split; constructor|]. split; [intros (A & B); constructor; [exact A|apply IH, B]|intro H; inversion H; subst; split; [assumption|apply IH; assumption]].
Qed.
Lemma plain_readable : forall t, plain_data t -> readable t.
Proof.
  intro t. induction t as [v|ts IH] using code_tree_ind; [intros [H|H]; [left|right; left]; exact H|]. rewrite plain_data_list, readable_list, !Forall_forall in *. auto.
Qed.
Lemma plain_text : forall t, plain_data t -> (exists z, code_text t = z_to_string z) \/ code_text t = $"#t" \/ code_text t = $"#f" \/ exists r, code_text t = c_lpar :: r.
Proof.
  intros [v|ts] H; [|right; right; right; rewrite text_list; eexists; reflexivity]. cbn [code_text]. unfold atom_text. destruct H as [(z & (T & V) & F)|(b & (T & V))]; rewrite T, V; [left; eexists; reflexivity|].
  right. destruct b; auto.
Qed.
Lemma plain_free : forall st t, word_names st -> plain_data t -> macro_free st main_sid t.
Proof.
  intros st t WN. induction t as [v|ts IH] using code_tree_ind; [intros _; exact Logic.I|]. destruct ts as [|h ts]; [intros _; exact Logic.I|]. rewrite plain_data_list, free_list. intro H. split.
  - apply WN, plain_text. inversion H; assumption.
  - rewrite !Forall_forall in *. auto.
Qed.
Lemma read_back_plain : forall st0 w t, heap_numbered st0 -> is_data st0 w t -> plain_data t -> exists txt, var_str w st0 = Val txt /\
  forall st modname code, can_quote st -> word_names st -> (code = $"(quote " ++ txt ++ $")" \/ code = $"'" ++ txt) ->
  exists v st' t', runs false false code modname st (Val (Some v)) st' /\ holds st' v t' /\ same_code t t' /\ var_str v st' = Val txt /\
    st_out st' = st_out st /\ forall u n, var_at st' u n = var_at st u n.
Proof.
  intros st0 w t H0 HO PD. assert (NTS : match t with CAtom v => v_ty v <> TString /\ v_ty v <> TSym | CList _ => True end).
  { destruct t as [v|ts]; [|exact Logic.I]. destruct PD as [(z & (T & V) & F)|(b & (T & V))]; split; congruence. }
  destruct (read_back_quote st0 w t H0 HO (plain_readable t PD)) as (txt & E & H); [destruct t; [apply NTS|exact Logic.I]|]. exists txt. split; [exact E|].
  intros st modname code RD WN C. apply H; [exact RD|apply plain_free; assumption|]. destruct C as [C|C]; [left; exact C|right]. split; [exact C|]. intros v ->. apply NTS.
Qed.

(** ** A fresh interpreter *)
Definition odd_name (n : str) : bool :=
  match n with
  | [] => false
  | c :: r => is_digit c || Ascii.eqb c c_lpar || (Ascii.eqb c "-" && match r with [] => false | d :: _ => is_digit d end)
              || (Ascii.eqb c "+" && match r with [] => false | d :: _ => is_digit d end) || str_eqb n $"#t" || str_eqb n $"#f"
  end.
Lemma odd_names : forall name, (exists z, name = z_to_string z) \/ name = $"#t" \/ name = $"#f" \/ (exists r, name = c_lpar :: r) -> odd_name name = true.
Proof.
  intros name [(z & ->)|[->|[->|(r & ->)]]]; [|reflexivity|reflexivity|reflexivity]. destruct (z_to_string_int_text z) as [ds N D|ds N D|ds N D]; destruct ds as [|c ds]; try congruence;
    cbn [forallb] in D; apply andb_prop in D; destruct D as (D & _); unfold odd_name; rewrite D; cbn; rewrite ?orb_true_r; reflexivity.
Qed.
Lemma lookup_odd : forall name vs, odd_name name = true -> forallb (fun kv : str * ptr => negb (odd_name (fst kv))) vs = true -> lookup name vs = None.
Proof.
  intros name vs O. unfold lookup. induction vs as [|[k p] vs IH]; intro H; [reflexivity|]. cbn [forallb fst] in H. apply andb_prop in H. destruct H as (H & R). cbn [List.find fst].
  destruct (list_eq_dec ascii_dec name k) as [->|N]; [rewrite O in H; discriminate|apply IH, R].
Qed.
Lemma words_by : forall st, match scope_at st main_sid with
    | Some sc => forallb (fun kv : str * ptr => negb (odd_name (fst kv))) (s_vars sc) = true
    | None => False end ->
  match var_at st main_sid $"###macros###" with
    | Some (P _ (OScope ms)) => match scope_at st ms with Some msc => forallb (fun kv : str * ptr => negb (odd_name (fst kv))) (s_vars msc) = true | None => False end
    | _ => False end -> word_names st.
Proof.
  intros st H K name N. apply odd_names in N. split.
  - left. unfold var_at. destruct (scope_at st main_sid) as [sc|] eqn:E; [|contradiction]. split; [exists sc; exact E|apply lookup_odd; assumption].
  - right. destruct (var_at st main_sid $"###macros###") as [[|i []]|] eqn:E; try contradiction. exists i, s. split; [reflexivity|]. unfold var_at. destruct (scope_at st s) as [msc|] eqn:EM; [|contradiction].
    split; [exists msc; exact EM|]. left. apply lookup_odd; assumption.
Qed.
Lemma knows_main : forall st name, match builtin_fn name with
  | None => False
  | Some f => match var_at st main_sid $"###macros###" with
    | Some (P _ (OScope ms)) => match scope_at st ms with Some msc => lookup name (s_vars msc) = None | None => False end
    | _ => False end /\
    match var_at st main_sid name with Some (P _ (OVar v)) => is_fn v f | _ => False end
  end -> knows st name.
Proof.
  intros st name H. destruct (builtin_fn name) as [f|] eqn:B; [|contradiction]. destruct H as (M & V).
  assert (SE : scope_exists st main_sid). { unfold var_at in V. destruct (scope_at st main_sid) as [sc|] eqn:E; [exists sc; exact E|contradiction]. }
  split; [split; [exact SE|]|].
  - right. destruct (var_at st main_sid $"###macros###") as [[|i []]|] eqn:E; try contradiction. exists i, s. split; [reflexivity|]. unfold var_at. destruct (scope_at st s) as [msc|] eqn:EM; [|contradiction].
    split; [exists msc; exact EM|exact M].
  - destruct (var_at st main_sid name) as [[|i []]|]; try contradiction. exists i, v, f. auto.
Qed.
Lemma fresh_ready : forall inp files e, can_quote (init_state inp files e) /\ word_names (init_state inp files e).
Proof.
  intros inp files e. split; [split; [apply reachable_heap, reach_init|split; [|split]]|].
  - eexists. split; [unfold scope_at; vm_compute; reflexivity|split; reflexivity].
  - apply knows_main. vm_compute. repeat split; reflexivity.
  - apply knows_main. vm_compute. repeat split; reflexivity.
  - apply words_by; vm_compute; reflexivity.
Qed.
(** ** What is not read back *)
Lemma nil_not_read : exists v st' v2 st2, runs false false $"(str (list 1 nil))" [] fresh (Val (Some v)) st' /\ is_str v $"(1 NIL)" /\
  runs false false $"(quote (1 NIL))" [] fresh (Val (Some v2)) st2 /\ var_str v2 st2 = Val $"(1 ())".
Proof.
  eexists _, _, _, _. split; [apply (runs_by 60); [vm_compute; reflexivity|discriminate]|split; [split; reflexivity|]].
  split; [apply (runs_by 60); [vm_compute; reflexivity|discriminate]|vm_compute; reflexivity].
Qed.
Lemma text_not_read : exists v st' v2 st2, runs false false ($"(list " ++ [c_dquote] ++ $"a" ++ [c_bslash; c_dquote] ++ $"b" ++ [c_dquote] ++ $")") [] fresh (Val (Some v)) st' /\
  var_str v st' = Val ($"(" ++ [c_dquote] ++ $"a" ++ [c_dquote] ++ $"b" ++ [c_dquote] ++ $")") /\
  runs false false ($"(quote (" ++ [c_dquote] ++ $"a" ++ [c_dquote] ++ $"b" ++ [c_dquote] ++ $"))") [] fresh (Throw v2) st2.
Proof.
  eexists _, _, _, _. split; [apply (runs_by 60); [vm_compute; reflexivity|discriminate]|split; [vm_compute; reflexivity|]].
  apply (runs_by 60); [vm_compute; reflexivity|discriminate].
Qed.
