(** From the text of a program to its run. *)
Require Import String Ascii List ZArith Bool Lia.
Require Import PArith FMapPositive.
From Verif Require Import Base CppString Num Token Value State Show ScopeOps Builtins Table Eval LispTop SpecLex SpecParse SpecRun SpecVal SpecNum SpecList SpecForm SpecCalc SpecMacro SpecRead SpecIo SpecLang
  BuiltinProofs RelProofs RunProofs NumProofs StrProofs ListProofs FormProofs ClosProofs CalcProofs QuoteProofs ReadProofs LangProofs DefnProofs.
Import ListNotations.

(** ** Code *)
Definition elem (t : SpecMacro.code) : SpecMacro.code := if is_nil_atom t then CList [] else nil_emptied t.
Lemma list_code : forall st q ds t, read_as (DList ds) t -> code_at st q (nil_emptied t) ->
  exists i l ps ts, q = P i (OList l) /\ t = CList ts /\ vec_at st l = Some ps /\ reads_as ds ts /\ codes_at st ps (map elem ts).
Proof.
  intros st q ds t R C. inversion R as [|? ts RS]; subst. cbn [nil_emptied] in C. inversion C as [|i l ps ? V CS]; subst. exists i, l, ps, ts. auto.
Qed.
Lemma cons_code : forall st ps d ds ts', reads_as (d :: ds) ts' -> codes_at st ps (map elem ts') ->
  exists p ps' t ts, ps = p :: ps' /\ ts' = t :: ts /\ read_as d t /\ code_at st p (elem t) /\ reads_as ds ts /\ codes_at st ps' (map elem ts).
Proof.
  intros st ps d ds ts' R C. inversion R as [|? ? t ts RT RS]; subst. cbn [map] in C. inversion C as [|p ps' ? ? CP CS]; subst. exists p, ps', t, ts. auto 10.
Qed.
Lemma nil_code : forall st ps ts, reads_as [] ts -> codes_at st ps (map elem ts) -> ps = [] /\ ts = [].
Proof. intros st ps ts R C. inversion R; subst. inversion C; subst. auto. Qed.
Lemma elem_list : forall ds t, read_as (DList ds) t -> elem t = nil_emptied t.
Proof. intros ds t R. inversion R; subst. reflexivity. Qed.
Lemma sym_code : forall st p x t, read_as (DAtom (TkSymbol, TvStr x)) t -> code_at st p (elem t) -> expr_sym p x /\ exists v, t = CAtom v /\ is_sym v x.
Proof.
  intros st p x t R C. inversion R as [k w A|]; subst. destruct A as [_ A]. cbn in A. unfold elem, is_nil_atom in C. pose proof A as [T _]. rewrite T in C. cbn in C. inversion C; subst.
  split; [exists i, w; split; [reflexivity|exact A]|exists w; auto].
Qed.
Lemma code_head : forall st q name ds t, read_as (DList (DAtom (TkSymbol, TvStr name) :: ds)) t -> code_at st q (nil_emptied t) ->
  exists args ts, code_of st q name args /\ reads_as ds ts /\ codes_at st args (map elem ts).
Proof.
  intros st q name ds t R C. destruct (list_code _ _ _ _ R C) as (i & l & ps & ts & -> & -> & V & RS & CS). destruct (cons_code _ _ _ _ _ RS CS) as (p & ps' & h & ts' & -> & -> & RH & CH & RT & CT).
  destruct (sym_code _ _ _ _ RH CH) as ((j & w & -> & SY) & _). exists ps', ts'. split; [|auto]. exists i, l, j, w. auto.
Qed.
Scheme exp_text_m := Induction for exp_text Sort Prop with exps_text_m := Induction for exps_text Sort Prop.
Combined Scheme exp_text_ind2 from exp_text_m, exps_text_m.
Scheme stm_text_m := Induction for stm_text Sort Prop with stms_text_m := Induction for stms_text Sort Prop.
Combined Scheme stm_text_ind2 from stm_text_m, stms_text_m.
Ltac head1 := match goal with R : read_as (datum_of (EList (symbol _ :: _))) _, C : code_at _ _ _ |- _ => cbn [datum_of map symbol] in R end;
  match goal with R : read_as (DList (DAtom _ :: _)) ?t, C : code_at _ _ _ |- _ => rewrite (elem_list _ _ R) in C; destruct (code_head _ _ _ _ _ R C) as (args & cs & CO & RS & CS); clear R C end.
Ltac next1 := match goal with RS : reads_as (_ :: _) ?cs, CS : codes_at _ _ (map elem ?cs) |- _ =>
  let p := fresh "p" in let ps := fresh "ps" in let t := fresh "t" in let ts := fresh "ts" in let R1 := fresh "R1" in let C1 := fresh "C1" in let R2 := fresh "RS" in let C2 := fresh "CS" in
  destruct (cons_code _ _ _ _ _ RS CS) as (p & ps & t & ts & -> & -> & R1 & C1 & R2 & C2); clear RS CS end.
Ltac done1 := match goal with RS : reads_as [] ?cs, CS : codes_at _ _ (map elem ?cs) |- _ => destruct (nil_code _ _ _ RS CS) as [-> ->]; clear RS CS end.
Lemma exp_code : forall st, (forall e x, exp_text e x -> forall q t, read_as (datum_of x) t -> code_at st q (elem t) -> exp_at st q e) /\
  (forall es xs, exps_text es xs -> forall qs ts, reads_as (map datum_of xs) ts -> codes_at st qs (map elem ts) -> exps_at st qs es).
Proof.
  intro st. apply (exp_text_ind2 (fun e x _ => forall q t, read_as (datum_of x) t -> code_at st q (elem t) -> exp_at st q e)
    (fun es xs _ => forall qs ts, reads_as (map datum_of xs) ts -> codes_at st qs (map elem ts) -> exps_at st qs es)).
  - intros z FZ q t R C. cbn in R. inversion R as [k w A|]; subst. destruct A as [_ A]. cbn in A. unfold elem, is_nil_atom in C. pose proof A as [T _]. rewrite T in C. cbn in C. inversion C; subst.
    apply ea_const; [exact Logic.I|]. constructor; assumption.
  - intros q t R C. cbn in R. inversion R as [k w A|]; subst. destruct A as [_ A]. cbn in A. unfold elem, is_nil_atom in C. pose proof A as [T _]. rewrite T in C. cbn in C. inversion C; subst.
    apply ea_const; [exact Logic.I|]. constructor; assumption.
  - intros q t R C. cbn in R. inversion R as [k w A|]; subst. destruct A as [_ A]. cbn in A. unfold elem, is_nil_atom in C. pose proof A as [T _]. rewrite T in C. cbn in C. inversion C; subst.
    apply ea_const; [exact Logic.I|]. constructor; assumption.
  - intros u q t R C. cbn in R. inversion R as [k w A|]; subst. destruct A as [_ A]. cbn in A. unfold elem, is_nil_atom in C. pose proof A as [T _]. rewrite T in C. cbn in C. inversion C; subst.
    apply ea_const; [exact Logic.I|]. constructor; assumption.
  - intros x q t R C. apply ea_name. apply (sym_code st q x t R C).
  - intros n es xs NF TS IS q t R C. head1. eapply ea_prim; eauto.
  - intros a b ea eb TA IA TB IB q t R C. head1. do 2 next1. done1. eapply ea_both; eauto.
  - intros c a b ec ea eb TC IC TA IA TB IB q t R C. head1. do 3 next1. done1. eapply ea_cond; eauto.
  - intros f es xs NF TS IS q t R C. head1. eapply ea_call; eauto.
  - intros f e x TE IE q t R C. head1. do 2 next1. done1. eapply ea_each; [eassumption|eapply sym_code; eassumption|eauto].
  - intros f e e0 x x0 TE IE TE0 IE0 q t R C. head1. do 3 next1. done1. eapply ea_gather; [eassumption|eapply sym_code; eassumption|eauto|eauto].
  - intros qs ts R C. cbn [map] in R. done1. constructor.
  - intros e x es xs TE IE TS IS qs ts R C. cbn [map] in R. next1. constructor; eauto.
Qed.
Lemma stm_code : forall st, (forall e x, stm_text e x -> forall q t, read_as (datum_of x) t -> code_at st q (elem t) -> stm_at st q e) /\
  (forall es xs, stms_text es xs -> forall qs ts, reads_as (map datum_of xs) ts -> codes_at st qs (map elem ts) -> stms_at st qs es).
Proof.
  intro st. pose proof (proj1 (exp_code st)) as EC. apply (stm_text_ind2 (fun e x _ => forall q t, read_as (datum_of x) t -> code_at st q (elem t) -> stm_at st q e)
    (fun es xs _ => forall qs ts, reads_as (map datum_of xs) ts -> codes_at st qs (map elem ts) -> stms_at st qs es)).
  - intros e x TE q t R C. apply sa_exp. eauto.
  - intros e x TE q t R C. head1. next1. done1. eapply sa_return; eauto.
  - intros y e x TE q t R C. head1. do 2 next1. done1. eapply sa_def; eauto. eapply sym_code; eauto.
  - intros y e x TE q t R C. head1. do 2 next1. done1. eapply sa_set; eauto. eapply sym_code; eauto.
  - intros ss xs TS IS q t R C. head1. eapply sa_block; eauto.
  - intros c a b ec ea eb TC TA IA TB IB q t R C. head1. do 3 next1. done1. eapply sa_if; eauto.
  - intros c a ec ea TC TA IA q t R C. head1. do 2 next1. done1. eapply sa_when; eauto.
  - intros c b ec eb TC TB IB q t R C. head1. do 2 next1. done1. eapply sa_while; eauto.
  - intros e x TE q t R C. head1. next1. done1. eapply sa_print; eauto.
  - intros qs ts R C. cbn [map] in R. done1. constructor.
  - intros s l ss xs TE IE TS IS qs ts R C. cbn [map] in R. next1. assert (Q := IE _ _ R1 C1). cbn [datum_of] in R1. rewrite (elem_list _ _ R1) in C1.
    destruct (list_code _ _ _ _ R1 C1) as (i & l' & ps' & ts' & -> & _). constructor; eauto.
Qed.
Lemma syms_code : forall st xs ps ts, reads_as (map datum_of (map symbol xs)) ts -> codes_at st ps (map elem ts) -> Forall2 expr_sym ps xs.
Proof.
  intros st xs. induction xs as [|x xs IH]; intros ps ts R C; cbn [map] in R; [done1; constructor|]. next1. constructor; [eapply sym_code; eassumption|eauto].
Qed.
(** A definition in the code. *)
Definition def_at (st : state) (p : ptr) (d : fundef) : Prop :=
  exists i l i0 w a1 a2, p = P i (OList l) /\ code_of st p $"defn" [P i0 (OVar w); a1; a2] /\ is_sym w (fst d) /\ parameters st a1 (fst (snd d)) /\ plain a1 /\ stm_at st a2 (snd (snd d)).
Lemma def_code : forall st d x q t, fun_text d x -> read_as (datum_of x) t -> code_at st q (elem t) -> def_at st q d.
Proof.
  intros st d x q t (eb & -> & TB) R C. cbn [datum_of map symbol] in R. pose proof C as C0. rewrite (elem_list _ _ R) in C0. destruct (list_code _ _ _ _ R C0) as (i & l & ps' & ts' & EQ & _).
  change (DAtom (TkSymbol, TvStr $"defn")) with (datum_of (symbol $"defn")) in R.
  rewrite (elem_list _ _ R) in C. destruct (code_head _ _ _ _ _ R C) as (args & cs & CO & RS & CS). clear R C C0.
  next1. next1. next1. done1. destruct (sym_code _ _ _ _ R1 C1) as ((i0 & w & -> & SY) & _). cbn [datum_of] in R0. rewrite (elem_list _ _ R0) in C0.
  destruct (list_code _ _ _ _ R0 C0) as (j & l2 & ps2 & ts2 & -> & -> & V & RX & CX).
  exists i, l, i0, w, (P j (OList l2)), p1. split; [exact EQ|]. split; [exact CO|]. split; [exact SY|].
  split; [exists ps2; split; [left; exists j, l2; auto|eapply syms_code; eassumption]|]. split; [exact Logic.I|]. eapply (proj1 (stm_code st)); eauto.
Qed.
Lemma defs_code : forall st defs l1 l2 qs ts, Forall2 fun_text defs l1 -> reads_as (map datum_of (l1 ++ l2)) ts -> codes_at st qs (map elem ts) ->
  exists q1 q2 ts2, qs = q1 ++ q2 /\ Forall2 (def_at st) q1 defs /\ reads_as (map datum_of l2) ts2 /\ codes_at st q2 (map elem ts2).
Proof.
  intros st defs l1 l2 qs ts H. revert qs ts. induction H as [|d x defs l1 T H IH]; intros qs ts R C; cbn [app map] in R; [exists [], qs, ts; auto|].
  next1. destruct (IH _ _ RS CS) as (q1 & q2 & ts2 & -> & F1 & R2 & C2). exists (p :: q1), q2, ts2. split; [reflexivity|]. split; [constructor; [eapply def_code; eassumption|exact F1]|auto].
Qed.

(** ** No macros *)
Fixpoint frees (st : state) (s : sid) (ts : list SpecMacro.code) : Prop := match ts with [] => True | t :: ts' => macro_free st s t /\ frees st s ts' end.
Lemma free_sym : forall st s v x ts, is_sym v x -> inert st s x -> frees st s ts -> macro_free st s (CList (CAtom v :: ts)).
Proof.
  intros st s v x ts [T V] I R. cbn [macro_free]. split; [|split; [exact Logic.I|]].
  - unfold code_text, atom_text. rewrite T, V. exact I.
  - induction ts as [|t ts IH]; [exact Logic.I|]. destruct R as [R1 R2]. split; [exact R1|apply IH, R2].
Qed.
Section Free.
Variables (st : state) (s : sid).
Hypothesis IN : forall n, ~ In n private -> inert st s n.
Lemma sym_read : forall x t, read_as (DAtom (TkSymbol, TvStr x)) t -> exists v, t = CAtom v /\ is_sym v x.
Proof. intros x t R. inversion R as [k w A|]; subst. destruct A as [_ A]. exists w. split; [reflexivity|exact A]. Qed.
Lemma free_head : forall x ds t, ~ In x private -> read_as (DList (DAtom (TkSymbol, TvStr x) :: ds)) t -> (forall ts, reads_as ds ts -> frees st s ts) -> macro_free st s t.
Proof.
  intros x ds t N R H. inversion R as [|? ts RS]; subst. inversion RS as [|? ? h ts' RH RT]; subst. destruct (sym_read _ _ RH) as (v & -> & SY). eapply free_sym; [exact SY|apply IN, N|apply H, RT].
Qed.
Lemma frees_cons : forall d ds, (forall t, read_as d t -> macro_free st s t) -> (forall ts, reads_as ds ts -> frees st s ts) -> forall ts, reads_as (d :: ds) ts -> frees st s ts.
Proof. intros d ds H1 H2 ts R. inversion R; subst. split; auto. Qed.
Lemma frees_nil : forall ts, reads_as [] ts -> frees st s ts.
Proof. intros ts R. inversion R; subst. exact Logic.I. Qed.
Lemma free_atom : forall k t, read_as (DAtom k) t -> macro_free st s t.
Proof. intros k t R. inversion R; subst. exact Logic.I. Qed.
Lemma op_public : forall k, ~ In (op_name k) private.
Proof. intros [] H; vm_compute in H; repeat (destruct H as [H|H]; [discriminate|]); exact H. Qed.
Ltac pub := intro; repeat match goal with H : In _ _ |- _ => vm_compute in H; repeat (destruct H as [H|H]; [discriminate|]); contradiction end.
Lemma free_exps : (forall e x, exp_text e x -> forall t, read_as (datum_of x) t -> macro_free st s t) /\
  (forall es xs, exps_text es xs -> forall ts, reads_as (map datum_of xs) ts -> frees st s ts).
Proof.
  apply (exp_text_ind2 (fun e x _ => forall t, read_as (datum_of x) t -> macro_free st s t) (fun es xs _ => forall ts, reads_as (map datum_of xs) ts -> frees st s ts));
    intros; try (eapply free_atom; eassumption); cbn [datum_of map symbol] in *; try (eapply free_atom; eassumption);
    try (eapply free_head; [|eassumption|]; [first [apply op_public|assumption|pub]|]); repeat (apply frees_cons; [first [assumption|intro; apply free_atom]|]); try assumption; try exact frees_nil; try (apply frees_nil; assumption).
  eapply frees_cons; eassumption.
Qed.
Lemma free_stms : (forall e x, stm_text e x -> forall t, read_as (datum_of x) t -> macro_free st s t) /\
  (forall es xs, stms_text es xs -> forall ts, reads_as (map datum_of xs) ts -> frees st s ts).
Proof.
  pose proof (proj1 free_exps) as FE.
  apply (stm_text_ind2 (fun e x _ => forall t, read_as (datum_of x) t -> macro_free st s t) (fun es xs _ => forall ts, reads_as (map datum_of xs) ts -> frees st s ts));
    intros; try (eapply FE; eassumption); cbn [datum_of map symbol] in *;
    try (eapply free_head; [|eassumption|]; [pub|]); repeat (apply frees_cons; [first [assumption|eapply FE; eassumption|apply free_atom]|]); try assumption; try exact frees_nil; try (apply frees_nil; assumption).
  eapply frees_cons; eassumption.
Qed.
Lemma free_syms : forall xs ts, reads_as (map datum_of (map symbol xs)) ts -> frees st s ts.
Proof. induction xs as [|x xs IH]; intros ts R; cbn [map] in R; [apply frees_nil, R|]. eapply frees_cons; [|exact IH|exact R]. intros t. apply free_atom. Qed.
Lemma free_def : forall d x t, free_name (fst d) -> Forall free_name (fst (snd d)) -> fun_text d x -> read_as (datum_of x) t -> macro_free st s t.
Proof.
  intros d x t _ FX (eb & -> & TB) R. cbn [datum_of map symbol] in R. eapply free_head; [|exact R|]; [pub|].
  apply frees_cons; [intro; apply free_atom|]. apply frees_cons; [|apply frees_cons; [apply (proj1 free_stms _ _ TB)|apply frees_nil]].
  intros u RU. destruct (fst (snd d)) as [|y ys]; cbn [map] in RU.
  - inversion RU as [|? ? RS]; subst. inversion RS; subst. exact Logic.I.
  - inversion FX as [|? ? (_ & _ & FY) _]; subst. eapply free_head; [exact FY|exact RU|]. apply free_syms.
Qed.
Lemma free_program : forall defs ss l, well_named defs -> program_text defs ss l -> forall ts, reads_as (map datum_of l) ts -> frees st s ts.
Proof.
  intros defs ss l (_ & WN) (l1 & l2 & -> & F1 & F2). pose proof (proj2 free_stms _ _ F2) as H2. revert WN. induction F1 as [|d x defs l1 T F1 IH]; intros WN; cbn [app map]; [exact H2|].
  inversion WN as [|? ? [A B] C]; subst. apply frees_cons; [intros t; eapply free_def; eassumption|apply IH, C].
Qed.
Lemma free_script : forall defs ss l, well_named defs -> program_text defs ss l -> forall t, read_as (script_datum l) t -> macro_free st s t.
Proof. intros defs ss l WN PT t R. eapply free_head; [|exact R|]; [pub|]. eapply free_program; eassumption. Qed.
End Free.

(** ** The fresh interpreter *)
Definition usual_fn (p : ptr) : bool := match p with P _ (OVar v) => match v_ty v, v_val v with TFun, Some (OFun f) => negb (fn_ex f) | _, _ => false end | _ => false end.
Definition usual_vars (vs : list (str * ptr)) : bool := forallb (fun kv => (if in_dec (list_eq_dec ascii_dec) (fst kv) private then true else false) || usual_fn (snd kv)) vs.
Lemma usual_lookup : forall n vs, ~ In n private -> usual_vars vs = true -> lookup n vs = None \/ exists i v f, lookup n vs = Some (P i (OVar v)) /\ is_fn v f /\ fn_ex f = false.
Proof.
  intros n vs N. unfold usual_vars, lookup. induction vs as [|[k p] vs IH]; intro H; [left; reflexivity|]. cbn [forallb fst snd] in H. apply andb_prop in H. destruct H as (H & R). cbn [List.find fst].
  destruct (list_eq_dec ascii_dec n k) as [-> |NE]; [|apply IH, R]. right. destruct (in_dec (list_eq_dec ascii_dec) k private); [contradiction|]. cbn [orb] in H. unfold usual_fn in H.
  destruct p as [|i [|?|?|?|?|?|?|?|?|?|? ? ?|v]]; try discriminate. destruct (v_ty v) eqn:T; try discriminate. destruct (v_val v) as [[|?|?|?|?|?|?|f|?|?|? ? ?|?]|] eqn:V; try discriminate.
  exists i, v, f. split; [reflexivity|]. split; [split; assumption|]. destruct (fn_ex f); [discriminate|reflexivity].
Qed.
Definition no_macros (st : state) : Prop :=
  exists i ms msc, ms <> main_sid /\ var_at st main_sid $"###macros###" = Some (P i (OScope ms)) /\ scope_at st ms = Some msc /\ s_vars msc = [].
Lemma usual_inert : forall st n, no_macros st -> (match scope_at st main_sid with Some sc => usual_vars (s_vars sc) = true | None => False end) -> ~ In n private -> inert st main_sid n.
Proof.
  intros st n (i & ms & msc & NM & V & S & E) U N. split.
  - unfold quiet, var_at. destruct (scope_at st main_sid) as [sc|] eqn:H; [|contradiction]. destruct (usual_lookup n (s_vars sc) N U) as [Q|(j & v & f & Q)]; [left|right].
    + split; [exists sc; exact H|exact Q].
    + exists j, v, f. exact Q.
  - right. exists i, ms. split; [exact V|]. split; [exists msc; exact S|]. left. unfold var_at. rewrite S, E. reflexivity.
Qed.
Lemma fresh_macros : forall inp files e, no_macros (init_state inp files e).
Proof. intros. do 3 eexists. split; [|split; [vm_compute; reflexivity|split; [vm_compute; reflexivity|reflexivity]]]. discriminate. Qed.
Lemma fresh_inert : forall inp files e n, ~ In n private -> inert (init_state inp files e) main_sid n.
Proof. intros inp files e n. apply usual_inert; [apply fresh_macros|vm_compute; reflexivity]. Qed.
Lemma no_macro_any : forall st n, scope_exists st main_sid -> no_macros st -> no_macro st main_sid n.
Proof.
  intros st n X (i & ms & msc & NM & V & S & E). split; [exact X|]. right. exists i, ms. split; [exact V|]. split; [exists msc; exact S|]. unfold var_at. rewrite S, E. reflexivity.
Qed.
Lemma fresh_words : forall inp files e n, In n words -> exists i v fn, var_at (init_state inp files e) main_sid n = Some (P i (OVar v)) /\ is_fn v fn /\ builtin_fn n = Some fn.
Proof.
  intros inp files e n I.
  assert (Q : forallb (fun n => match builtin_fn n, lookup n (fst main_vars) with Some f, Some (P _ (OVar v)) => match v_ty v with TFun => true | _ => false end | _, _ => false end) words = true) by (vm_compute; reflexivity).
  rewrite forallb_forall in Q. specialize (Q n I). assert (E : var_at (init_state inp files e) main_sid n = lookup n (fst main_vars)).
  { assert (S : exists sc, scope_at (init_state inp files e) main_sid = Some sc /\ s_vars sc = fst main_vars) by (eexists; split; [unfold scope_at; vm_compute; reflexivity|vm_compute; reflexivity]).
    destruct S as (sc & S & SV). unfold var_at. rewrite S, SV. reflexivity. }
  rewrite E. unfold builtin_fn in *. rewrite lookup_find in *. clear E. revert Q. generalize (lookup n (fst main_vars)). clear. intros x Q. destruct x as [[|i [|?|?|?|?|?|?|?|?|?|? ? ?|v]]|]; try discriminate. destruct (v_val v) as [[|?|?|?|?|?|?|f|?|?|? ? ?|?]|] eqn:V; try discriminate.
  exists i, v, f. split; [reflexivity|]. split; [|reflexivity]. split; [destruct (v_ty v); congruence|exact V].
Qed.

(** ** Definitions *)
Lemma noted_vecs : forall st s tok, st_vecs (noted st s tok) = st_vecs st.
Proof. intros st s tok. unfold noted. destruct tok; [|reflexivity]. destruct (scope_at st s); reflexivity. Qed.
Lemma noted_dicts : forall st s tok, st_dicts (noted st s tok) = st_dicts st.
Proof. intros st s tok. unfold noted. destruct tok; [|reflexivity]. destruct (scope_at st s); reflexivity. Qed.
Definition add_fun (F : funs) (f : str) (d : list str * stm) : funs := fun n => if list_eq_dec ascii_dec n f then Some d else F n.
Definition made (f : str) (u : sid) (n : str) : Prop := u = main_sid /\ n = f.
Definition starting (F : funs) (st : state) : Prop := world F st main_sid /\ no_macros st /\ frame F st main_sid main_sid empty_store /\ leaving st main_sid false.
Lemma public_ne : forall f n, ~ In f private -> In n private -> n <> f.
Proof. intros f n A B ->. contradiction. Qed.
Lemma var_becomes_keeps : forall st st' f v, var_becomes st st' main_sid f v -> keeps no_scope (made f) st st'.
Proof.
  intros st st' f v (_ & O & S & X & K & V & D & _ & I & FI & E). split; [intros l es H; unfold vec_at in *; rewrite V; exact H|]. split.
  - intros u sc H. assert (XU : scope_exists st' u) by (apply X; exists sc; exact H). destruct XU as (sc' & H'). exists sc'. split; [exact H'|].
    destruct (K u sc sc' H H') as (Q1 & Q2 & Q3 & Q4 & Q5 & Q6 & Q7 & Q8 & Q9 & Q10 & _). repeat split; auto.
  - split; [|split; [intros l d H; unfold dict_at in *; rewrite D; exact H|repeat split; assumption]]. intros u n _ NW. apply O. intro Q. injection Q as -> ->. apply NW. split; reflexivity.
Qed.
Lemma described_calm : forall st st' s d, described st st' s d -> calm st st'.
Proof.
  intros st st' s d ((sc & H & H') & O & V & D & _ & I & FI & E). split; [intros l es Q; unfold vec_at in *; rewrite V; exact Q|]. split.
  - intros u x Q. destruct (Pos.eq_dec u s) as [-> |N].
    + assert (x = sc) by congruence. subst x. eexists. split; [exact H'|]. repeat split.
    + exists x. rewrite O by exact N. repeat split; auto.
  - split; [|split; [intros l q Q; unfold dict_at in *; rewrite D; exact Q|repeat split; assumption]]. intros u n _ _. unfold var_at. destruct (Pos.eq_dec u s) as [-> |N]; [rewrite H, H'; reflexivity|rewrite O by exact N; reflexivity].
Qed.
Lemma no_macros_keeps : forall (A : sid -> Prop) (W : sid -> str -> Prop) st st', (forall u n, W u n -> u = main_sid) -> (forall u, ~ W u $"###macros###") -> keeps A W st st' -> scope_exists st main_sid -> (forall u, u <> main_sid -> scope_at st' u = scope_at st u) -> no_macros st -> no_macros st'.
Proof.
  intros A W st st' WM WN (_ & _ & N & _) X O (i & ms & msc & NM & V & S & E). exists i, ms, msc. split; [exact NM|]. split; [rewrite N; [exact V|exact X|apply WN]|]. split; [rewrite O; [exact S|exact NM]|exact E].
Qed.
Lemma add_fixed : forall F f d n, fixed (add_fun F f d) n -> n = f \/ fixed F n.
Proof. intros F f d n [H|H]; [right; left; exact H|]. unfold add_fun in H. destruct (list_eq_dec ascii_dec n f); [left; assumption|right; right; exact H]. Qed.
Lemma define : forall F st p d, starting F st -> def_at st p d -> free_name (fst d) -> Forall free_name (fst (snd d)) -> F (fst d) = None ->
  exists v st', evals p main_sid st (Val (Some v)) st' /\ keeps no_scope (made (fst d)) st st' /\ starting (add_fun F (fst d) (snd d)) st' /\ st_out st' = st_out st.
Proof.
  intros F st p (f & xs & b) (W & NM & R & L) (i & l & i0 & w & a1 & a2 & -> & CO & SY & PA & PL & BO) (FN1 & FN2 & FN3) FX NF. cbn [fst snd] in *.
  destruct (code_form _ _ _ _ CO) as (tok & FO). pose proof W as (NU & HN & (gs & G & T) & MA & B & D). pose proof R as ((sc & H & EG & NL) & RX & RV & RC).
  assert (GW : forall n, In n words -> global_word st main_sid n).
  { intros n I. destruct (B n I) as (j & v & fn & Q). exists sc, j, v, fn. rewrite EG. split; [exact H|exact Q]. }
  destruct (defn_defines $"defn" $"def" st main_sid sc (P i (OList l)) tok _ a1 a2 i0 w f xs (or_introl eq_refl) FO) as (v & fn & st2 & st' & EV & FV & FC & SP & _ & _ & _ & DE & VB).
  { eapply word_standard; try eassumption. vm_compute. tauto. }
  { apply GW. vm_compute. tauto. }
  { apply GW. vm_compute. tauto. }
  { exact H. }
  { rewrite EG. exists gs. exact G. }
  { reflexivity. }
  { exact SY. }
  { exact PA. }
  { eapply Forall_impl; [|exact FX]. intros n (Q & _). exact Q. }
  { exact PL. }
  { eapply stm_plain; exact BO. }
  change (if list_eq_dec ascii_dec $"defn" $"defn" then main_sid else s_global sc) with main_sid in VB.
  assert (K1 : calm st st2) by (eapply calm_trans; [apply calm_noted|eapply described_calm; exact DE]).
  assert (K : keeps no_scope (made f) st st') by (eapply keeps_trans; [apply calm_any; exact K1|eapply var_becomes_keeps; exact VB]).
  assert (NU' : numbered st') by (eapply evals_numbered; eassumption).
  assert (VE : st_vecs st' = st_vecs st /\ st_dicts st' = st_dicts st /\ st_out st' = st_out st).
  { destruct DE as (_ & _ & D1 & D2 & D3 & _). destruct VB as (_ & _ & _ & _ & _ & V1 & V2 & V3 & _). rewrite noted_vecs in D1. rewrite noted_dicts in D2. rewrite noted_out in D3. repeat split; congruence. }
  destruct VE as (VE & DI & OU). assert (HN' : heap_numbered st') by (eapply heap_ahead; [exact HN|eapply evals_ahead; exact EV|exact VE|exact DI]).
  assert (WF : world F st' main_sid).
  { eapply world_keeps; [| |exact K|exact NU'|exact HN'|exact W].
    - intros n FN u (_ & ->). destruct FN as [I|FF]; [contradiction|congruence].
    - intros u (_ & E). revert E. apply (public_ne f); [exact FN3|vm_compute; tauto]. }
  assert (X' : scope_exists st' main_sid) by (eapply exists_keeps; [exact K|exists sc; exact H]).
  assert (NM' : no_macros st').
  { eapply no_macros_keeps; [| |exact K|exists sc; exact H| |exact NM]; [intros u n (E & _); exact E|intros u (_ & E); revert E; apply (public_ne f); [exact FN3|vm_compute; tauto]|].
    intros u N. destruct VB as (_ & _ & S2 & _). destruct DE as (_ & S1 & _). rewrite S2, S1 by exact N. rewrite noted_scope. destruct tok; [|reflexivity]. destruct (Pos.eqb_spec u main_sid); [contradiction|reflexivity]. }
  assert (NV : forall n, n <> f -> var_at st' main_sid n = var_at st main_sid n).
  { intros n N. destruct K as (_ & _ & N2 & _). apply N2; [exists sc; exact H|]. intros (_ & E). contradiction. }
  exists v, st'. split; [exact EV|]. split; [exact K|]. split; [|exact OU]. split; [|split; [exact NM'|split]].
  - destruct WF as (_ & _ & G' & MA' & B' & D'). split; [exact NU'|]. split; [exact HN'|]. split; [exact G'|]. split; [|split; [exact B'|]].
    + intros n FN. destruct (add_fixed _ _ _ _ FN) as [-> |FO']; [|apply MA', FO']. split; [apply no_macro_any; assumption|exact FN3].
    + intros f' xs' b' E. unfold add_fun in E. destruct (list_eq_dec ascii_dec f' f) as [-> |N]; [|apply D', E]. injection E as <- <-.
      destruct VB as ((j & VB) & _). exists j, v, fn, f, (s_module sc), a1, a2, [], main_sid. split; [exact VB|]. split; [exact FV|]. split; [exact SP|]. split; [exact FC|]. split; [eapply asks_keeps; [exact K|exists sc; split; [exact H|exact NL]]|].
      split; [eapply params_keeps; eassumption|eapply stm_keeps; eassumption].
  - destruct K as (_ & S & _). destruct (S _ _ H) as (sc' & H' & G' & _ & _ & _ & NL' & _). split; [exists sc'; split; [exact H'|split; congruence]|]. split; [intros; left; reflexivity|]. split; [intros x u Q; discriminate Q|].
    destruct RC as [RC|(t & (j & o & RC1) & (j2 & RC2))]; [left; rewrite NV; [exact RC|]|right; exists t; split; [exists j, o; rewrite NV; [exact RC1|]|exists j2; rewrite NV; [exact RC2|]]];
      apply (public_ne f); try exact FN3; vm_compute; tauto.
  - destruct K as (_ & S & _). destruct L as (lc & LH & LI). destruct (S _ _ LH) as (sc' & H' & _ & _ & _ & _ & _ & Q). exists sc'. split; [exact H'|]. rewrite Q; [exact LI|]. intro Z. exact Z.
Qed.
Lemma def_keeps : forall A W st st' p d, keeps A W st st' -> def_at st p d -> def_at st' p d.
Proof.
  intros A W st st' p d K (i & l & i0 & w & a1 & a2 & -> & CO & SY & PA & PL & BO). exists i, l, i0, w, a1, a2. split; [reflexivity|].
  split. { destruct CO as (i' & l' & j & h & E & V & S). exists i', l', j, h. split; [exact E|]. split; [apply K, V|exact S]. }
  split; [exact SY|]. split; [eapply params_keeps; eassumption|]. split; [exact PL|eapply stm_keeps; eassumption].
Qed.
Lemma defs_keep : forall A W st st' ps defs, keeps A W st st' -> Forall2 (def_at st) ps defs -> Forall2 (def_at st') ps defs.
Proof. intros A W st st' ps defs K H. induction H; constructor; [eapply def_keeps; eassumption|assumption]. Qed.
Fixpoint add_funs (F : funs) (defs : list fundef) : funs := match defs with [] => F | d :: defs' => add_funs (add_fun F (fst d) (snd d)) defs' end.
Lemma add_funs_at : forall defs F n, NoDup (map fst defs) -> add_funs F defs n = match table defs n with Some d => Some d | None => F n end.
Proof.
  induction defs as [|[f d] defs IH]; intros F n ND; [reflexivity|]. cbn [map fst] in ND. inversion ND as [|? ? N1 N2]; subst. cbn [add_funs table fst snd]. rewrite IH by exact N2. unfold add_fun.
  destruct (list_eq_dec ascii_dec n f) as [-> |N]; [|reflexivity]. assert (E : forall ds, ~ In f (map fst ds) -> table ds f = None).
  { induction ds as [|[f' d'] ds IHs]; intro NI; [reflexivity|]. cbn [table]. cbn in NI. destruct (list_eq_dec ascii_dec f f') as [-> |]; [exfalso; apply NI; left; reflexivity|]. apply IHs. intro. apply NI. right. assumption. }
  rewrite E by exact N1. reflexivity.
Qed.
Definition all_made (defs : list fundef) (u : sid) (n : str) : Prop := u = main_sid /\ In n (map fst defs).
Lemma define_all : forall ps defs F st rest r0, Forall2 (def_at st) ps defs -> NoDup (map fst defs) -> Forall (fun d => free_name (fst d) /\ Forall free_name (fst (snd d))) defs -> (forall d, In d defs -> F (fst d) = None) ->
  starting F st -> exists r1 st', (forall r st2, in_sequence main_sid rest r1 st' r st2 -> in_sequence main_sid (ps ++ rest) r0 st r st2) /\
    keeps no_scope (all_made defs) st st' /\ starting (add_funs F defs) st' /\ st_out st' = st_out st.
Proof.
  intros ps defs. revert ps. induction defs as [|d defs IH]; intros ps F st rest r0 PS ND FR NF SG; inversion PS as [|p ? ps' ? DA PS']; subst.
  - exists r0, st. split; [auto|]. split; [apply keeps_refl|]. split; [exact SG|reflexivity].
  - inversion ND as [|? ? N1 N2]; subst. inversion FR as [|? ? [FA FB] FR']; subst.
    destruct (define F st p d SG DA FA FB (NF d (or_introl eq_refl))) as (v & st1 & EV & K1 & SG1 & O1).
    assert (PS1 : Forall2 (def_at st1) ps' defs) by (eapply defs_keep; eassumption).
    assert (NF1 : forall d', In d' defs -> add_fun F (fst d) (snd d) (fst d') = None).
    { intros d' I. unfold add_fun. destruct (list_eq_dec ascii_dec (fst d') (fst d)) as [E|]; [exfalso; apply N1; rewrite <- E; apply in_map, I|apply NF; right; exact I]. }
    destruct (IH ps' _ st1 rest (Some v) PS1 N2 FR' NF1 SG1) as (r1 & st2 & SQ & K2 & SG2 & O2). exists r1, st2. split; [|split; [|split; [exact SG2|congruence]]].
    + intros r st3 Q. destruct DA as (i & l & _ & _ & _ & _ & -> & _). cbn [app]. eapply sq_next; [exact EV|apply SG1|apply SQ, Q].
    + eapply keeps_trans; [eapply keeps_weaken; [| |exact K1]|eapply keeps_weaken; [| |exact K2]]; try (intros u Z; exact Z); [intros u n (-> & ->); split; [reflexivity|left; reflexivity]|].
      intros u n (-> & I); split; [reflexivity|right; exact I].
Qed.

(** ** Programs *)
Lemma entered_starting : forall inp files e m ts st1, let st := init_state inp files e in only_adds (entered st false m ts) st1 -> heap_numbered st1 -> numbered st1 ->
  starting (fun _ => None) st1 /\ st_out st1 = [] /\ st_in st1 = inp /\ st_files st1 = files /\ st_env st1 = e /\ (forall u n, var_at st1 u n = var_at st u n).
Proof.
  intros inp files e m ts st1 st (AV & AD & SC & OU & IN & FI & EN) HN NU.
  assert (M : exists sc, scope_at st main_sid = Some sc /\ s_global sc = main_sid /\ s_inret sc = false /\ s_needlv sc = false) by (eexists; split; [unfold scope_at; vm_compute; reflexivity|split; [|split]; reflexivity]).
  destruct M as (sc & H & G & RT & NL). set (sc' := set_tokens ts (set_tracing false (set_module m sc))).
  assert (S1 : forall u, scope_at st1 u = if Pos.eqb u main_sid then Some sc' else scope_at st u). { intro u. unfold scope_at. rewrite SC. unfold entered. rewrite H. cbn [st_scopes with_scopes]. apply find_add. }
  assert (H1 : scope_at st1 main_sid = Some sc') by (rewrite S1; reflexivity).
  assert (V1 : forall u n, var_at st1 u n = var_at st u n). { intros u n. unfold var_at. rewrite S1. destruct (Pos.eqb_spec u main_sid) as [-> |]; [rewrite H|]; reflexivity. }
  assert (NM : no_macros st1). { destruct (fresh_macros inp files e) as (i & ms & msc & N & V & S & E). exists i, ms, msc. split; [exact N|]. split; [rewrite V1; exact V|]. split; [|exact E]. rewrite S1. destruct (Pos.eqb_spec ms main_sid); [contradiction|exact S]. }
  assert (X : scope_exists st1 main_sid) by (exists sc'; exact H1).
  split; [split; [|split; [exact NM|split]]|].
  - split; [exact NU|]. split; [exact HN|]. split; [exists sc'; split; [exact H1|reflexivity]|]. split; [|split].
    + intros n [I|FF]; [|congruence]. split; [apply no_macro_any; assumption|]. intro P. revert n I P.
      assert (Q : forallb (fun n => if in_dec (list_eq_dec ascii_dec) n private then false else true) words = true) by (vm_compute; reflexivity).
      intros n I P. rewrite forallb_forall in Q. specialize (Q n I). destruct (in_dec (list_eq_dec ascii_dec) n private); [discriminate|contradiction].
    + intros n I. rewrite V1. apply fresh_words, I.
    + intros f xs b Q. discriminate Q.
  - split; [exists sc'; split; [exact H1|split; [exact G|exact NL]]|]. split; [intros; left; reflexivity|]. split; [intros x v Q; discriminate Q|]. right. exists []. split.
    + eexists. eexists. rewrite V1. vm_compute. reflexivity.
    + eexists. rewrite V1. vm_compute. reflexivity.
  - exists sc'. split; [exact H1|exact RT].
  - rewrite OU, IN, FI, EN. unfold entered. rewrite H. repeat (split; [reflexivity|]). exact V1.
Qed.
Lemma fixed_ext : forall F F' n, (forall x, F x = F' x) -> fixed F n -> fixed F' n.
Proof. intros F F' n E [H|H]; [left; exact H|right; rewrite <- E; exact H]. Qed.
Lemma starting_ext : forall F F' st, (forall x, F x = F' x) -> starting F st -> starting F' st.
Proof.
  intros F F' st E ((A & B & C & D & G & H) & NM & (R1 & R2 & R3 & R4) & L). assert (E' : forall x, F' x = F x) by (intro; symmetry; apply E).
  split; [|split; [exact NM|split; [|exact L]]].
  - repeat (split; [assumption|]). split; [intros n FN; apply D; eapply fixed_ext; eassumption|]. split; [exact G|]. intros f xs b Q. apply H. rewrite E. exact Q.
  - split; [exact R1|]. split; [|split; [exact R3|exact R4]]. intros n FN. apply R2. eapply fixed_ext; eassumption.
Qed.
Lemma program_loaded : forall inp files e modname defs ss l s ks, well_named defs -> program_text defs ss l -> src_ok s -> src_kinds s ks -> writes_all l ks ->
  exists r1 st3 q2, starting (table defs) st3 /\ stms_at st3 q2 ss /\ st_out st3 = [] /\ st_in st3 = inp /\ st_files st3 = files /\ st_env st3 = e /\
    (forall n, ~ In n (map fst defs) -> var_at st3 main_sid n = var_at (init_state inp files e) main_sid n) /\
    forall w st', in_sequence main_sid q2 r1 st3 w st' -> runs false false (src_text s) modname (init_state inp files e) (Val w) st'.
Proof.
  intros inp files e modname defs ss l s ks WN PT OK KS WR. set (st := init_state inp files e).
  destruct (script_reads st false modname s l ks) as (ts & t & p & st1 & _ & RD & CA & AD & HN & NU & RUN); try assumption.
  { apply reachable_heap, reach_init. }
  { apply main_here. vm_compute. exact Logic.I. }
  { eapply free_script; [|exact WN|exact PT]. intros n. apply fresh_inert. }
  specialize (NU (reachable_numbered _ (reach_init _ _ _))).
  destruct (entered_starting inp files e modname ts st1 AD HN NU) as (SG & O1 & I1 & F1 & E1 & V1).
  destruct (code_head _ _ _ _ _ RD CA) as (args & cs & CO & RS & CS). destruct PT as (l1 & l2 & -> & T1 & T2).
  destruct (defs_code st1 defs l1 l2 args cs T1 RS CS) as (q1 & q2 & ts2 & -> & DF & R2 & C2). pose proof (proj2 (stm_code st1) _ _ T2 _ _ R2 C2) as SA.
  destruct (code_form _ _ _ _ CO) as (tok & FO).
  assert (PL : Forall plain (q1 ++ q2)).
  { apply Forall_app. split; [|eapply stms_plain; exact SA]. clear -DF. induction DF as [|q d q1 defs D DF IH]; constructor; [|exact IH]. destruct D as (i & l & _ & _ & _ & _ & -> & _). exact Logic.I. }
  set (st2 := noted st1 main_sid tok). assert (K2 : calm st1 st2) by apply calm_noted.
  assert (SG2 : starting (fun _ => None) st2).
  { destruct SG as (W & NM & R & L). pose proof (after_noted _ main_sid main_sid st1 empty_store false tok W R L) as (_ & W2 & R2' & L2 & _). split; [exact W2|]. split; [|split; assumption].
    destruct NM as (i & ms & msc & N & V & S & E). exists i, ms, msc. split; [exact N|]. pose proof K2 as (_ & _ & NV & _). split; [rewrite NV; [exact V|destruct R as ((sc0 & H0 & _) & _); exists sc0; exact H0|intro Z; exact Z]|]. 
    split; [|exact E]. unfold st2. rewrite noted_scope. destruct tok; [|exact S]. destruct (Pos.eqb_spec ms main_sid); [contradiction|exact S]. }
  destruct WN as (ND & FR).
  destruct (define_all q1 defs (fun _ => None) st2 q2 (Some vundef)) as (r1 & st3 & SQ & K3 & SG3 & O3); try assumption; [eapply defs_keep; eassumption|reflexivity|].
  assert (SG4 : starting (table defs) st3) by (eapply starting_ext; [|exact SG3]; intro x; rewrite add_funs_at by exact ND; destruct (table defs x); reflexivity).
  exists r1, st3, q2. split; [exact SG4|]. split; [eapply stms_keeps; [exact K3|eapply stms_keeps; [exact K2|exact SA]]|].
  assert (X1 : scope_exists st1 main_sid) by (destruct SG as (_ & _ & ((sc0 & H0 & _) & _) & _); exists sc0; exact H0). assert (X2 : scope_exists st2 main_sid) by (eapply exists_keeps; [exact K2|exact X1]).
  destruct K3 as (_ & _ & Y0 & _ & Y1 & Y2 & Y3). destruct K2 as (_ & _ & Z0 & _ & Z1 & Z2 & Z3).
  split; [rewrite O3; unfold st2; rewrite noted_out; exact O1|]. split; [congruence|]. split; [congruence|]. split; [congruence|].
  split. { intros n NI. rewrite Y0; [|exact X2|intros (_ & I); contradiction]. rewrite Z0; [apply V1|exact X1|intros []]. }
  intros w st' Q.
  apply RUN. apply (do_value st1 main_sid p $"do" tok (q1 ++ q2)); [left; reflexivity|exact FO| |exact PL|apply SQ, Q].
  destruct SG as (W1 & _ & Rr & _). eapply word_standard; [exact W1|exact Rr|vm_compute; tauto].
Qed.
Theorem program_runs : forall inp files e modname defs ss l s ks m' v r o, well_named defs -> program_text defs ss l -> ss <> [] -> src_ok s -> src_kinds s ks -> writes_all l ks ->
  do_all (table defs) empty_store ss NoV m' v r o ->
  exists w st', runs false false (src_text s) modname (init_state inp files e) (Val w) st' /\ res_is st' w v /\ st_out st' = o /\
    (forall x u, m' x = Some u -> exists i z, var_at st' main_sid x = Some (P i (OVar z)) /\ val_is st' z u) /\
    st_in st' = inp /\ st_files st' = files /\ st_env st' = e.
Proof.
  intros inp files e modname defs ss l s ks m' v r o WN PT NE OK KS WR DO.
  destruct (program_loaded inp files e modname defs ss l s ks WN PT OK KS WR) as (r1 & st3 & q2 & (W & NM & R & L) & SA3 & O3 & I3 & F3 & E3 & _ & RUN).
  assert (FIN : exists w st', in_sequence main_sid q2 r1 st3 w st' /\ res_is st' w v /\ after (table defs) main_sid main_sid st3 st' m' r o).
  { pose proof (all_good (table defs)) as (_ & _ & GS & GA & _). destruct SA3 as [|i l' ps b ss' S1 S2]; [congruence|]. inversion DO as [|? ? ? ? m1 v1 o1 ? ? ? o2 D1 D2|? ? ? ? ? ? ? D1]; subst.
    - destruct (GS _ _ _ _ _ _ D1 main_sid st3 main_sid _ W R L S1) as (w1 & st4 & EV1 & VI1 & A1). pose proof A1 as (K4 & W4 & R4 & L4 & _).
      destruct (GA _ _ _ _ _ _ _ D2 main_sid st4 main_sid ps w1 W4 R4 L4 (stms_keeps _ _ _ _ _ _ K4 S2) VI1) as (w2 & st5 & Q & VI2 & A2).
      exists w2, st5. split; [eapply sq_next; eassumption|]. split; [exact VI2|eapply after_trans; eassumption].
    - destruct (GS _ _ _ _ _ _ D1 main_sid st3 main_sid _ W R L S1) as (w1 & st4 & EV1 & VI1 & A1). pose proof A1 as (_ & _ & _ & L4 & _).
      exists w1, st4. split; [eapply sq_return; eassumption|]. split; [exact VI1|exact A1]. }
  destruct FIN as (w & st' & Q & VI & (K & W' & R' & L' & O')). exists w, st'. split; [apply RUN, Q|]. split; [exact VI|]. split; [rewrite O', O3; reflexivity|]. split; [apply R'|].
  destruct K as (_ & _ & _ & _ & X1 & X2 & X3). repeat split; congruence.
Qed.
