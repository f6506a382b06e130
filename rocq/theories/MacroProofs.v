(** Code as trees: text, expansion of macros, replacement of parameters, quoting. *)
Require Import String Ascii List ZArith Bool Lia.
Require Import PArith FMapPositive FinFun.
From Verif Require Import Base CppString Num Token Parser Value State Show ScopeOps Builtins Table Eval LispTop SpecRun SpecVal SpecList SpecForm SpecMacro
  BuiltinProofs Wf FuelProofs RunProofs NumProofs ErrProofs ListProofs FormProofs ClosProofs.
Import ListNotations.

(** ** Trees *)
Scheme code_at_mut := Minimality for code_at Sort Prop with codes_at_mut := Minimality for codes_at Sort Prop.
Combined Scheme code_at_both from code_at_mut, codes_at_mut.
Section Tree_ind.
  Variable Q : code -> Prop.
  Hypothesis Ha : forall v, Q (CAtom v).
  Hypothesis Hl : forall ts, Forall Q ts -> Q (CList ts).
  Fixpoint code_tree_ind (t : code) : Q t :=
    match t with
    | CAtom v => Ha v
    | CList ts => Hl ts ((fix go (ts : list code) : Forall Q ts :=
        match ts with [] => Forall_nil Q | t :: ts' => Forall_cons t (code_tree_ind t) (go ts') end) ts)
    end.
End Tree_ind.
Fixpoint csize (t : code) : nat := match t with CAtom _ => 1%nat | CList ts => S (fold_right (fun t n => csize t + n)%nat 0%nat ts) end.
Fixpoint cheight (t : code) : nat := match t with CAtom _ => 0%nat | CList ts => S (fold_right (fun t n => Nat.max (cheight t) n) 0%nat ts) end.
Definition cheights (ts : list code) : nat := fold_right (fun t n => Nat.max (cheight t) n) 0%nat ts.
Lemma cheight_list : forall ts, cheight (CList ts) = S (cheights ts). Proof. reflexivity. Qed.

Lemma codes_det : forall st, (forall p t, code_at st p t -> forall t', code_at st p t' -> t = t') /\
  (forall ps ts, codes_at st ps ts -> forall ts', codes_at st ps ts' -> ts = ts').
Proof.
  intro st. apply code_at_both.
  - intros i v t' H. inversion H. reflexivity.
  - intros i l ps ts E H IH t' K. inversion K as [|? ? ps' ts' E' H']; subst. assert (ps' = ps) by congruence. subst. f_equal. apply IH, H'.
  - intros ts' H. inversion H. reflexivity.
  - intros p ps t ts H IH HS IHS ts' K. inversion K; subst. f_equal; auto.
Qed.
Lemma codes_nth : forall st ps ts, codes_at st ps ts -> forall t, In t ts -> exists p, In p ps /\ code_at st p t.
Proof.
  intros st ps ts H. induction H as [|p ps t ts H HS IH].
  - intros t [].
  - intros u [<-|I]; [exists p; split; [left; reflexivity|exact H]|]. destruct (IH u I) as (q & J & K). exists q. split; [right; exact J|exact K].
Qed.
Lemma size_in : forall t ts, In t ts -> (csize t < csize (CList ts))%nat.
Proof.
  intros t ts. cbn [csize]. induction ts as [|u ts IH]; intros []; cbn [fold_right]; [subst; lia|]. specialize (IH H). lia.
Qed.
Lemma height_in : forall ts, ts <> [] -> exists t, In t ts /\ cheights ts = cheight t.
Proof.
  induction ts as [|u ts IH]; intro N; [congruence|]. cbn [cheights fold_right]. fold (cheights ts). destruct ts as [|w ts].
  - exists u. split; [left; reflexivity|]. cbn. lia.
  - destruct IH as (t & I & E); [discriminate|]. destruct (Nat.max_dec (cheight u) (cheights (w :: ts))) as [M|M]; rewrite M.
    + exists u. split; [left|]; reflexivity. + exists t. split; [right; exact I|exact E].
Qed.
(** The lists along a longest path are different. *)
Lemma path : forall st t p, code_at st p t -> exists ls, length ls = cheight t /\ NoDup ls /\
  Forall (fun l => exists i u, code_at st (P i (OList l)) u /\ (csize u <= csize t)%nat) ls.
Proof.
  intros st t. induction t as [v|ts IH] using code_tree_ind; intros p H.
  - exists []. repeat split; constructor.
  - inversion H as [|i l ps ts' E HS]; subst. rewrite cheight_list. destruct ts as [|t0 ts0].
    + exists [l]. split; [reflexivity|]. split; [constructor; [intros []|constructor]|]. constructor; [|constructor]. exists i, (CList []). split; [exact H|lia].
    + destruct (height_in (t0 :: ts0)) as (t & I & ->); [discriminate|]. rewrite Forall_forall in IH. destruct (codes_nth _ _ _ HS t I) as (q & _ & HQ).
      destruct (IH t I q HQ) as (ls & L & ND & F). exists (l :: ls). split; [cbn [length]; congruence|]. assert (SZ := size_in _ _ I). rewrite Forall_forall in F. split.
      * constructor; [|exact ND]. intro X. destruct (F l X) as (j & u & K & S). assert (u = CList (t0 :: ts0)); [|subst; lia].
        inversion K as [|? ? ps' us E' HS']; subst. assert (ps' = ps) by congruence. subst ps'. f_equal. eapply codes_det; eassumption.
      * constructor; [exists i, (CList (t0 :: ts0)); split; [exact H|lia]|]. apply Forall_forall. intros m X. destruct (F m X) as (j & u & K & S). exists j, u. split; [exact K|lia].
Qed.
Lemma height_bound : forall st p t, heap_numbered st -> code_at st p t -> (cheight t <= Pos.to_nat (st_nloc st))%nat.
Proof.
  intros st p t (HN & _) H. destruct (path _ _ _ H) as (ls & <- & ND & F).
  assert (X : (length (map Pos.to_nat ls) <= length (seq 0 (Pos.to_nat (st_nloc st))))%nat); [|rewrite map_length, seq_length in X; exact X]. apply NoDup_incl_length.
  - apply Injective_map_NoDup; [|exact ND]. intros a b E. apply Pos2Nat.inj, E.
  - intros x X. apply in_map_iff in X. destruct X as (l & <- & I). rewrite Forall_forall in F. destruct (F l I) as (i & u & K & _).
    inversion K as [|? ? ps us E]; subst. apply HN in E. apply in_seq. lia.
Qed.

(** ** Text *)
Definition join_text (acc : str) (ts : list code) : str := fold_left (fun acc t => add_word acc (code_text t)) ts acc.
Lemma text_list : forall ts, code_text (CList ts) = $"(" ++ join_text [] ts ++ $")".
Proof.
  intro ts. cbn [code_text]. f_equal. f_equal. unfold join_text. generalize (@nil ascii).
  induction ts as [|t ts IH]; intro acc; [reflexivity|]. cbn [fold_left]. rewrite <- IH. reflexivity.
Qed.
Lemma parsed_list : forall ts, parsed (CList ts) <-> Forall parsed ts.
Proof.
  intro ts. cbn [parsed]. induction ts as [|t ts IH]; [split; constructor|]. rewrite IH. split; [intros (A & B); constructor; assumption|intro H; inversion H; auto].
Qed.
Lemma atom_show : forall v n st, parsed_atom v -> show (S (S (S n))) st (ShObj (OVar v)) = Val (atom_text v).
Proof.
  intros v n st H. unfold parsed_atom in H. cbn [show]. unfold atom_text. destruct v as [ty vl uq tk]. cbn [v_ty v_val] in *.
  destruct H as [(t & T & V)|[(t & T & V)|[(z & T & V)|[(d & T & V)|[(b & T & V)|T]]]]]; cbn [v_ty v_val] in *; subst; reflexivity.
Qed.
Lemma show_code : forall st, (forall p t, code_at st p t -> parsed t -> forall n, (cheight t + 3 <= n)%nat -> exists o, deref p = Val o /\ show n st (ShObj o) = Val (code_text t)) /\
  (forall ps ts, codes_at st ps ts -> Forall parsed ts -> forall n acc, (cheights ts + 3 <= n)%nat ->
     join_out $" " (fun p => let? o := deref p in show n st (ShObj o)) ps acc = Val (join_text acc ts)).
Proof.
  intro st. apply code_at_both.
  - intros i v PA n L. exists (OVar v). split; [reflexivity|]. destruct n as [|[|[|n]]]; cbn in L; try lia. apply atom_show, PA.
  - intros i l ps ts E HS IH PA n L. exists (OList l). split; [reflexivity|]. rewrite cheight_list in L. destruct n as [|n]; [lia|]. rewrite text_list.
    cbn [show]. unfold get_vec. unfold vec_at in E. rewrite E. cbn [obind]. rewrite IH; [reflexivity|apply parsed_list, PA|lia].
  - reflexivity.
  - intros p ps t ts H IH HS IHS PA n acc L. inversion PA as [|? ? PA1 PA2]; subst. cbn [cheights fold_right] in L. fold (cheights ts) in L.
    destruct (IH PA1 n) as (o & D & S); [lia|]. cbn [join_out]. rewrite D. cbn [obind]. rewrite S. cbn [obind]. rewrite IHS by (auto; lia).
    unfold join_text. cbn [fold_left]. f_equal. f_equal. unfold add_word. destruct acc; [reflexivity|]. rewrite <- app_assoc. reflexivity.
Qed.
Lemma text_of_code : forall st p t, heap_numbered st -> code_at st p t -> parsed t -> ptr_str p st = Val (code_text t).
Proof.
  intros st p t HN H PA. destruct (show_code st) as (A & _). assert (B := height_bound _ _ _ HN H).
  destruct (A p t H PA (show_fuel st)) as (o & D & S); [unfold show_fuel; lia|]. unfold ptr_str. rewrite D. cbn [obind]. exact S.
Qed.

(** ** Expansion *)
Definition eventually {A} (f : nat -> M A) (st : state) (r : out A * state) : Prop := exists n, forall m, (n <= m)%nat -> f m st = r.
Lemma eventually_ends : forall A (f : nat -> M A) st o st', o <> NoFuel -> eventually f st (o, st') -> ends_with f st o st'.
Proof. intros A f st o st' N (n & H). exists n. split; [apply H; lia|exact N]. Qed.
Lemma mono_expand : forall p s, monotone (fun n => r_expand (run n) p s).
Proof. intros p s n m L. apply lr_expand. apply le_run. exact L. Qed.
Lemma mono_expand1 : forall p s, monotone (fun n => r_expand1 (run n) p s).
Proof. intros p s n m L. apply lr_expand1. apply le_run. exact L. Qed.
Lemma mono_replace : forall v p es b, monotone (fun n => r_replace (run n) v p es b).
Proof. intros v p es b n m L. apply lr_replace. apply le_run. exact L. Qed.
Lemma mono_quasi : forall es s, monotone (fun n => r_quasi (run n) es s).
Proof. intros es s n m L. apply lr_quasi. apply le_run. exact L. Qed.
Lemma ends_eventually : forall A (f : nat -> M A) st o st', monotone f -> ends_with f st o st' -> eventually f st (o, st').
Proof. intros A f st o st' MO (n & H & N). exists n. intros m L. eapply ends_at; eassumption. Qed.

Lemma adds_refl : forall st, only_adds st st.
Proof. intro st. unfold only_adds. repeat split; auto. Qed.
Lemma adds_trans : forall a b c, only_adds a b -> only_adds b c -> only_adds a c.
Proof. unfold only_adds. intros a b c H K. decompose [and] H. decompose [and] K. repeat split; try congruence; auto. Qed.
Lemma adds_list : forall es st, heap_numbered st -> only_adds st (with_nid (Pos.succ (st_nid st)) (more_vec es st)) /\
  heap_numbered (with_nid (Pos.succ (st_nid st)) (more_vec es st)) /\ vec_at (with_nid (Pos.succ (st_nid st)) (more_vec es st)) (st_nloc st) = Some es.
Proof.
  intros es st HN. split; [|split].
  - unfold only_adds. split; [intros l x E; apply (more_vec_old es st l x HN E)|]. repeat split; auto.
  - apply (more_vec_heap es st HN). - apply (more_vec_at es st).
Qed.
Lemma adds_nid : forall st n, only_adds st (with_nid n st).
Proof. intros st n. unfold only_adds. repeat split; auto. Qed.
Lemma adds_code : forall st st', only_adds st st' -> (forall p t, code_at st p t -> code_at st' p t) /\ (forall ps ts, codes_at st ps ts -> codes_at st' ps ts).
Proof.
  intros st st' (A & _). apply code_at_both.
  - intros. apply ca_atom.
  - intros i l ps ts E _ IH. eapply ca_list; [apply A, E|exact IH].
  - apply cs_nil. - intros. apply cs_cons; assumption.
Qed.
Lemma adds_scope : forall st st' s, only_adds st st' -> scope_at st' s = scope_at st s.
Proof. intros st st' s (_ & _ & H & _). unfold scope_at. rewrite H. reflexivity. Qed.
Lemma adds_var : forall st st' s n, only_adds st st' -> var_at st' s n = var_at st s n.
Proof. intros st st' s n H. unfold var_at. rewrite (adds_scope _ _ _ H). reflexivity. Qed.
Lemma adds_exists : forall st st' s, only_adds st st' -> scope_exists st s -> scope_exists st' s.
Proof. intros st st' s H (sc & E). exists sc. rewrite (adds_scope _ _ _ H). exact E. Qed.
Lemma adds_inert : forall st st' s n, only_adds st st' -> inert st s n -> inert st' s n.
Proof.
  intros st st' s n H (A & B). split.
  - destruct A as [(X & A)|(i & v & f & A & R)]; [left; split; [eapply adds_exists; eassumption|rewrite (adds_var _ _ _ _ H); exact A]|].
    right. exists i, v, f. rewrite (adds_var _ _ _ _ H). auto.
  - destruct B as [B|(i & ms & B & X & C)]; [left; rewrite (adds_var _ _ _ _ H); exact B|]. right. exists i, ms. rewrite !(adds_var _ _ _ _ H).
    split; [exact B|]. split; [eapply adds_exists; eassumption|exact C].
Qed.
Lemma free_list : forall st s h ts, macro_free st s (CList (h :: ts)) <-> inert st s (code_text h) /\ Forall (macro_free st s) (h :: ts).
Proof.
  intros st s h ts. cbn [macro_free]. split.
  - intros (A & B & C). split; [exact A|]. constructor; [exact B|]. induction ts as [|t ts IH]; constructor; [apply C|apply IH, C].
  - intros (A & B). inversion B as [|? ? B1 B2]; subst. split; [exact A|]. split; [exact B1|]. clear -B2. induction B2; [exact I|split; assumption].
Qed.
Lemma adds_free : forall st st' s, only_adds st st' -> forall t, macro_free st s t -> macro_free st' s t.
Proof.
  intros st st' s H t. induction t as [v|ts IH] using code_tree_ind; [exact (fun x => x)|]. destruct ts as [|h ts]; [exact (fun x => x)|].
  rewrite !free_list. intros (A & B). split; [eapply adds_inert; eassumption|]. rewrite Forall_forall in *. auto.
Qed.
(** What happens at the head of a list. *)
Lemma inert_scope : forall st s n, inert st s n -> scope_exists st s.
Proof. intros st s n ([(X & _)|(i & v & f & V & _)] & _); [exact X|]. unfold var_at in V. destruct (scope_at st s) as [sc|] eqn:E; [exists sc; exact E|discriminate]. Qed.
Lemma inert_own : forall st s name n R rest, inert st s name -> n = name ->
  (let! own := reads (scope_find s n) in
   let! ex := match own with None => ret None | Some q => let! v := lift (vref q) in let! f := reads (function_value v) in ret (if fn_ex f then Some f else None) end in
   match ex with Some f => let! _ := r_call R f rest s in ret (PNull, false) | None => ret (PNull, true) end) st = (Val (PNull, true), st).
Proof.
  intros st s name n R rest H ->. assert (X := inert_scope _ _ _ H). unfold bind at 1, reads at 1. rewrite (find_var _ _ _ X). destruct H as ([(_ & V)|(i & v & f & V & FN & EX)] & _); rewrite V.
  - reflexivity.
  - unfold bind, lift, reads. cbn [vref vref_obj]. rewrite (fn_value _ _ _ FN). unfold ret. rewrite EX. reflexivity.
Qed.
Lemma inert_macro : forall st s name h, inert st s name -> ptr_str h st = Val name ->
  get_macro h s st = Val None \/ exists j formals body, get_macro h s st = Val (Some (P j (OMacro true formals body))).
Proof.
  intros st s name h H T. assert (X := inert_scope _ _ _ H). destruct H as (_ & M). unfold get_macro. rewrite (find_var _ _ k_macros X). cbn [obind]. change k_macros with ($"###macros###").
  destruct M as [->|(i & ms & -> & XM & C)]; [left; reflexivity|]. cbn [scope_ref obind]. rewrite T. cbn [obind]. rewrite (find_var _ _ _ XM).
  destruct C as [->|(j & fs & b & ->)]; [left; reflexivity|right; exists j, fs, b; reflexivity].
Qed.
Lemma run_S : forall m, (1 <= m)%nat -> run m = step (run (m - 1)).
Proof. intros m L. destruct m as [|m]; [lia|]. cbn [run]. rewrite Nat.sub_succ, Nat.sub_0_r. reflexivity. Qed.
Lemma text_heap : forall es st, heap_numbered st -> st_nloc (with_nid (Pos.succ (st_nid st)) (more_vec es st)) = Pos.succ (st_nloc st).
Proof. reflexivity. Qed.

Definition expand_result (s : sid) (p : ptr) (st : state) (t : code) : Prop :=
  exists i o st', eventually (fun n => r_expand (run n) p s) st (Val (P i o), st') /\ code_at st' (P i o) (nil_emptied t) /\ only_adds st st' /\ heap_numbered st'.
Lemma convert_code : forall st i o t, heap_numbered st -> code_at st (P i o) t -> parsed t ->
  exists q st', convert_list (P i o) st = (Val q, st') /\ code_at st' q (if is_nil_atom t then CList [] else t) /\ only_adds st st' /\ heap_numbered st'.
Proof.
  intros st i o t HN C PA. unfold convert_list, bind at 1, lift. cbn [deref]. inversion C as [j v|j l ps ts E CS]; subst.
  - cbn [is_nil_atom]. destruct (is_list v) eqn:EL.
    + assert (EN : v_ty v = TNil). { cbn [parsed] in PA. unfold is_list, is_ty in EL. destruct PA as [(x & A & _)|[(x & A & _)|[(x & A & _)|[(x & A & _)|[(x & A & _)|A]]]]]; rewrite A in *; try discriminate EL; reflexivity. }
      unfold bind, reads. unfold list_value. rewrite EN. change (ltype_eqb TNil TNil) with true. rewrite list_ptr_run.
      destruct (adds_list [] st HN) as (A & B & V). eexists _, _. split; [reflexivity|]. split; [eapply ca_list; [exact V|apply cs_nil]|]. auto.
    + assert (EN : ltype_eqb (v_ty v) TNil = false). { unfold is_list, is_ty in EL. apply orb_false_iff in EL. destruct (v_ty v); cbn in *; try reflexivity; destruct EL; discriminate. }
      rewrite EN. eexists _, _. split; [reflexivity|]. split; [apply ca_atom|]. split; [apply adds_refl|exact HN].
  - eexists _, _. split; [reflexivity|]. split; [exact C|]. split; [apply adds_refl|exact HN].
Qed.
Lemma parsed_emptied : forall t, parsed t -> parsed (nil_emptied t).
Proof.
  intro t. induction t as [v|ts IH] using code_tree_ind; [exact (fun x => x)|]. cbn [nil_emptied]. rewrite !parsed_list, !Forall_forall in *.
  intros H x X. apply in_map_iff in X. destruct X as (y & <- & Y). destruct (is_nil_atom y); [exact I|]. apply IH; [exact Y|apply H, Y].
Qed.
Lemma nil_emptied_nil : forall t, is_nil_atom (nil_emptied t) = is_nil_atom t.
Proof. intros [v|ts]; reflexivity. Qed.
Lemma expand_all : forall s ts, (forall t, In t ts -> forall st p, heap_numbered st -> code_at st p t -> parsed t -> macro_free st s t -> expand_result s p st t) ->
  forall st ps, heap_numbered st -> codes_at st ps ts -> Forall parsed ts -> Forall (macro_free st s) ts ->
  exists qs st', eventually (fun n => expand_elems (run n) ps s) st (Val qs, st') /\
    codes_at st' qs (map (fun t => if is_nil_atom t then CList [] else nil_emptied t) ts) /\ only_adds st st' /\ heap_numbered st'.
Proof.
  intros s ts. induction ts as [|t ts IH]; intros E st ps HN CS PA FR; inversion CS as [|p ps' ? ? C CS']; subst.
  - exists [], st. split; [exists O; intros; reflexivity|]. split; [apply cs_nil|]. split; [apply adds_refl|exact HN].
  - inversion PA as [|? ? PA1 PA2]; subst. inversion FR as [|? ? FR1 FR2]; subst.
    destruct (E t (or_introl eq_refl) st p HN C PA1 FR1) as (i & o & st1 & (n1 & R1) & C1 & A1 & H1).
    destruct (convert_code st1 i o (nil_emptied t) H1 C1 (parsed_emptied _ PA1)) as (q & st2 & R2 & C2 & A2 & H2). rewrite nil_emptied_nil in C2.
    assert (A12 := adds_trans _ _ _ A1 A2).
    destruct (IH (fun x X => E x (or_intror X)) st2 ps' H2) as (qs & st3 & (n3 & R3) & C3 & A3 & H3).
    { apply (proj2 (adds_code _ _ A12)), CS'. } { exact PA2. } { rewrite Forall_forall in *. intros x X. eapply adds_free; [exact A12|auto]. }
    exists (q :: qs), st3. split; [|split; [|split; [eapply adds_trans; eassumption|exact H3]]].
    + exists (Nat.max n1 n3). intros m L. cbn [expand_elems]. unfold bind at 1. rewrite R1 by lia. cbn [fst snd]. unfold bind at 1. rewrite R2. cbn [fst snd]. unfold bind at 1. rewrite R3 by lia. reflexivity.
    + cbn [map]. apply cs_cons; [apply (proj1 (adds_code _ _ A3)), C2|exact C3].
Qed.
Lemma expand_free : forall s t st p, heap_numbered st -> code_at st p t -> parsed t -> macro_free st s t -> expand_result s p st t.
Proof.
  intros s t. induction t as [v|ts IH] using code_tree_ind; intros st p HN C PA FR; inversion C as [i ?|i l ps ? EV CS]; subst.
  - exists i, (OVar v), st. split; [|split; [apply ca_atom|split; [apply adds_refl|exact HN]]]. exists 2%nat. intros m L. rewrite run_S by lia. cbn [step r_expand]. unfold expand_loop, bind.
    rewrite run_S by lia. reflexivity.
  - destruct ts as [|t ts].
    + inversion CS; subst. exists i, (OList l), st. split; [|split; [exact C|split; [apply adds_refl|exact HN]]]. exists 2%nat. intros m L. rewrite run_S by lia. cbn [step r_expand]. unfold expand_loop, bind at 1.
      rewrite run_S by lia. cbn [step r_expand1]. unfold expand_once, bind, reads, get_vec. unfold vec_at in EV. rewrite EV. reflexivity.
    + apply parsed_list in PA. destruct (proj1 (free_list _ _ _ _) FR) as (IN & FRA). inversion CS as [|h rest ? ? CH CR]; subst.
      destruct (expand_all s (t :: ts)) with (st := st) (ps := h :: rest) as (qs & st1 & (n1 & R1) & C1 & A1 & H1); try assumption.
      { rewrite Forall_forall in IH. exact IH. }
      destruct (adds_list qs st1 H1) as (A2 & H2 & V2).
      exists (st_nid st1), (OList (st_nloc st1)), (with_nid (Pos.succ (st_nid st1)) (more_vec qs st1)).
      split; [|split; [|split; [eapply adds_trans; eassumption|exact H2]]].
      * exists (S (S n1)). intros m L. rewrite run_S by lia. cbn [step r_expand]. unfold expand_loop, bind at 1. rewrite run_S by lia. cbn [step r_expand1]. unfold expand_once.
        unfold bind at 1, reads at 1, get_vec. unfold vec_at in EV. rewrite EV.
        inversion PA as [|? ? PH _]; subst. assert (T := text_of_code _ _ _ HN CH PH). unfold bind at 1, reads at 1. rewrite T.
        assert (X := inert_scope _ _ _ IN). unfold bind at 1, reads at 1. rewrite (find_var _ _ _ X).
        assert (EX : (match var_at st s (code_text t) with None => ret None | Some q => let! v := lift (vref q) in let! f := reads (function_value v) in ret (if fn_ex f then Some f else None) end) st = (Val None, st)).
        { destruct IN as ([(_ & V)|(j & v & f & V & FN & EX)] & _); rewrite V; [reflexivity|]. unfold bind, lift, reads. cbn [vref vref_obj]. rewrite (fn_value _ _ _ FN). unfold ret. rewrite EX. reflexivity. }
        unfold bind at 1. rewrite EX. unfold bind at 1, reads at 1.
        destruct (inert_macro _ _ _ h IN T) as [->|(j & fs & b & ->)]; unfold bind at 1; rewrite R1 by lia; unfold bind at 1; rewrite list_ptr_run; reflexivity.
      * cbn [nil_emptied]. eapply ca_list; [exact V2|]. apply (proj2 (adds_code _ _ A2)), C1.
Qed.
Lemma no_nil_list : forall ts, no_nil (CList ts) <-> Forall no_nil ts.
Proof.
  intro ts. cbn [no_nil]. induction ts as [|t ts IH]; [split; constructor|]. split; [intros (A & B); constructor; [exact A|apply IH, B]|intro H; inversion H; subst; split; [assumption|apply IH; assumption]].
Qed.
Lemma valued_list : forall ts, valued (CList ts) <-> Forall valued ts.
Proof.
  intro ts. cbn [valued]. induction ts as [|t ts IH]; [split; constructor|]. split; [intros (A & B); constructor; [exact A|apply IH, B]|intro H; inversion H; subst; split; [assumption|apply IH; assumption]].
Qed.
Lemma emptied_same : forall t, no_nil t -> nil_emptied t = t.
Proof.
  intro t. induction t as [v|ts IH] using code_tree_ind; [reflexivity|]. rewrite no_nil_list. intro H. cbn [nil_emptied]. f_equal. rewrite <- map_id. apply map_ext_in. rewrite Forall_forall in *.
  intros x X. rewrite IH by auto. specialize (H x X). destruct x as [v|us]; [|reflexivity]. cbn [is_nil_atom no_nil] in *. destruct (v_ty v); try reflexivity. congruence.
Qed.
Lemma expand_identity : forall s t st p, heap_numbered st -> code_at st p t -> parsed t -> macro_free st s t ->
  exists p' st', expands p s st (Val p') st' /\ code_at st' p' (nil_emptied t) /\ only_adds st st'.
Proof.
  intros s t st p HN C PA FR. destruct (expand_free s t st p HN C PA FR) as (i & o & st' & E & C' & A & _). exists (P i o), st'. split; [apply eventually_ends; [discriminate|exact E]|]. auto.
Qed.
Lemma expand_same : forall s t st p, heap_numbered st -> code_at st p t -> parsed t -> macro_free st s t -> no_nil t ->
  exists p' st', expands p s st (Val p') st' /\ code_at st' p' t /\ only_adds st st'.
Proof. intros s t st p HN C PA FR NN. destruct (expand_identity s t st p HN C PA FR) as (p' & st' & E & C' & A). rewrite (emptied_same t NN) in C'. exists p', st'. auto. Qed.

(** ** Replacing parameters *)
Lemma compare_atom : forall st sym x i v, v_val sym = Some (OString x) -> v_val v <> None -> symbol_compare sym (P i (OVar v)) st = Val (names_atom x v).
Proof.
  intros st sym x i v E N. unfold symbol_compare, names_atom. cbn [deref obind]. rewrite E. destruct (v_val v) as [o|]; [|congruence]. destruct o as [| | | |t| | | | | | |]; try reflexivity.
  cbn [obj_eq_simple]. f_equal. destruct (list_eq_dec ascii_dec x t) as [->|X]; [apply str_eqb_eq; reflexivity|apply str_eqb_neq, X].
Qed.
Lemma subst_none : forall x a t, mentions x t = false -> subst x a t = t.
Proof.
  intros x a t. induction t as [v|ts IH] using code_tree_ind; cbn [mentions subst]; [intros ->; reflexivity|]. intro H. f_equal. rewrite <- (map_id ts) at 2. apply map_ext_in. rewrite Forall_forall in IH.
  intros y Y. apply IH; [exact Y|]. destruct (mentions x y) eqn:E; [|reflexivity]. assert (existsb (mentions x) ts = true) by (apply existsb_exists; exists y; auto). congruence.
Qed.
Definition replaces (sym : variant) (x : str) (margs : bool) (us : list code) : Prop :=
  forall st es value a, heap_numbered st -> codes_at st es us -> Forall valued us -> code_at st value a -> (margs = true -> existsb (mentions x) us = false) ->
  exists qs st', eventually (fun n => replace_symbol (run n) sym value es margs) st (Val qs, st') /\ codes_at st' qs (map (subst x a) us) /\ only_adds st st' /\ heap_numbered st'.
Lemma replace_items : forall sym x margs, v_val sym = Some (OString x) -> forall us, (forall ts, In (CList ts) us -> replaces sym x margs ts) -> replaces sym x margs us.
Proof.
  intros sym x margs ES us. induction us as [|u us IH]; intros SUB st es value a HN CS VA CV MA; inversion CS as [|e es' ? ? C CS']; subst.
  - exists [], st. split; [exists O; intros; reflexivity|]. split; [apply cs_nil|]. split; [apply adds_refl|exact HN].
  - inversion VA as [|? ? V1 V2]; subst.
    assert (M1 : margs = true -> mentions x u = false) by (intro Q; specialize (MA Q); cbn [existsb] in MA; apply orb_false_iff in MA; apply MA).
    assert (M2 : margs = true -> existsb (mentions x) us = false) by (intro Q; specialize (MA Q); cbn [existsb] in MA; apply orb_false_iff in MA; apply MA).
    assert (HEAD : exists q st1, eventually (fun n => let! hit := reads (symbol_compare sym e) in
        if hit then let! vo := lift (deref value) in match vo with OList l => if margs then reads (get_vec l) else ret [value] | _ => ret [value] end
        else let! o := lift (deref e) in match o with OList l => let! es := reads (get_vec l) in let! t := r_replace (run n) sym value es margs in let! p := new_list_ptr t in ret [p] | _ => ret [e] end) st (Val [q], st1)
        /\ code_at st1 q (subst x a u) /\ only_adds st st1 /\ heap_numbered st1).
    { inversion C as [i v|i l ps ts EV CT]; subst.
      - cbn [subst]. cbn [mentions] in M1. destruct (names_atom x v) eqn:EN.
        + exists value, st. split; [|split; [exact CV|split; [apply adds_refl|exact HN]]]. exists O. intros m _. unfold bind at 1, reads at 1. rewrite (compare_atom _ _ _ _ _ ES V1), EN.
          destruct margs; [specialize (M1 eq_refl); discriminate|]. unfold bind, lift. inversion CV; subst; reflexivity.
        + exists (P i (OVar v)), st. split; [|split; [exact C|split; [apply adds_refl|exact HN]]]. exists O. intros m _. unfold bind at 1, reads at 1. rewrite (compare_atom _ _ _ _ _ ES V1), EN. reflexivity.
      - destruct (SUB ts (or_introl eq_refl) st ps value a HN CT) as (qs & st1 & (n1 & R1) & C1 & A1 & H1); [apply valued_list, V1|exact CV|exact M1|].
        destruct (adds_list qs st1 H1) as (A2 & H2 & EV2). exists (P (st_nid st1) (OList (st_nloc st1))), (with_nid (Pos.succ (st_nid st1)) (more_vec qs st1)).
        split; [|split; [|split; [eapply adds_trans; eassumption|exact H2]]].
        + exists (S n1). intros m L. unfold bind at 1, reads at 1. cbn [symbol_compare deref obind]. unfold bind at 1, lift. cbn [deref]. unfold bind at 1, reads, get_vec. unfold vec_at in EV. rewrite EV.
          rewrite run_S by lia. cbn [step r_replace]. unfold bind at 1. rewrite R1 by lia. unfold bind at 1. rewrite list_ptr_run. reflexivity.
        + cbn [subst]. eapply ca_list; [exact EV2|]. apply (proj2 (adds_code _ _ A2)), C1. }
    destruct HEAD as (q & st1 & (n1 & R1) & C1 & A1 & H1).
    destruct (IH (fun ts X => SUB ts (or_intror X)) st1 es' value a H1) as (qs & st2 & (n2 & R2) & C2 & A2 & H2).
    { apply (proj2 (adds_code _ _ A1)), CS'. } { exact V2. } { apply (proj1 (adds_code _ _ A1)), CV. } { exact M2. }
    exists (q :: qs), st2. split; [|split; [cbn [map]; apply cs_cons; [apply (proj1 (adds_code _ _ A2)), C1|exact C2]|split; [eapply adds_trans; eassumption|exact H2]]].
    exists (Nat.max n1 n2). intros m L. specialize (R1 m ltac:(lia)). specialize (R2 m ltac:(lia)). cbn [replace_symbol]. unfold bind at 1 in R1. unfold bind at 1.
    destruct (reads (symbol_compare sym e) st) as (o & sto) eqn:E0. destruct o as [hit| | | |]; try discriminate R1. unfold bind at 1. rewrite R1. cbn [app]. unfold bind at 1. rewrite R2. reflexivity.
Qed.
Lemma replace_tree : forall sym x margs, v_val sym = Some (OString x) -> forall t, match t with CAtom _ => True | CList us => replaces sym x margs us end.
Proof.
  intros sym x margs ES t. induction t as [v|ts IH] using code_tree_ind; [exact I|]. apply replace_items; [exact ES|]. intros us U. rewrite Forall_forall in IH. apply (IH _ U).
Qed.
Lemma replace_codes : forall sym x margs us, v_val sym = Some (OString x) -> replaces sym x margs us.
Proof. intros sym x margs us ES. exact (replace_tree sym x margs ES (CList us)). Qed.
Lemma codes_forall2 : forall st ps ts, codes_at st ps ts <-> Forall2 (code_at st) ps ts.
Proof. intros st ps. induction ps as [|p ps IH]; intros ts; split; intro H; inversion H; subst; constructor; try assumption; apply IH; assumption. Qed.
Lemma valued_emptied : forall t, valued t -> valued (nil_emptied t).
Proof.
  intro t. induction t as [v|ts IH] using code_tree_ind; [exact (fun x => x)|]. cbn [nil_emptied]. rewrite !valued_list, !Forall_forall in *.
  intros H x X. apply in_map_iff in X. destruct X as (y & <- & Y). destruct (is_nil_atom y); [exact I|]. apply IH; [exact Y|apply H, Y].
Qed.
Lemma valued_subst : forall x a t, valued a -> valued t -> valued (subst x a t).
Proof.
  intros x a t VA. induction t as [v|ts IH] using code_tree_ind; cbn [subst]; [destruct (names_atom x v); auto|]. rewrite !valued_list, !Forall_forall in *.
  intros H y Y. apply in_map_iff in Y. destruct Y as (z & <- & Z). apply IH; [exact Z|apply H, Z].
Qed.
(** One step of expansion of an argument without macros. *)
Lemma expand1_free : forall s st i l t, heap_numbered st -> code_at st (P i (OList l)) t -> parsed t -> macro_free st s t ->
  exists q st', eventually (fun n => r_expand1 (run n) (P i (OList l)) s) st (Val (q, false), st') /\ code_at st' q (nil_emptied t) /\ only_adds st st' /\ heap_numbered st'.
Proof.
  intros s st i l t HN C PA FR. inversion C as [|? ? ps ts EV CS]; subst. destruct ts as [|t ts].
  - inversion CS; subst. exists (P i (OList l)), st. split; [|split; [exact C|split; [apply adds_refl|exact HN]]]. exists 1%nat. intros m L.
    rewrite run_S by lia. cbn [step r_expand1]. unfold expand_once, bind, reads, get_vec. unfold vec_at in EV. rewrite EV. reflexivity.
  - apply parsed_list in PA. destruct (proj1 (free_list _ _ _ _) FR) as (IN & FRA). inversion CS as [|h rest ? ? CH CR]; subst.
    destruct (expand_all s (t :: ts)) with (st := st) (ps := h :: rest) as (qs & st1 & (n1 & R1) & C1 & A1 & H1); try assumption.
    { intros u _ w p. apply expand_free. }
    destruct (adds_list qs st1 H1) as (A2 & H2 & V2).
    exists (P (st_nid st1) (OList (st_nloc st1))), (with_nid (Pos.succ (st_nid st1)) (more_vec qs st1)).
    split; [|split; [|split; [eapply adds_trans; eassumption|exact H2]]].
    + exists (S n1). intros m L. rewrite run_S by lia. cbn [step r_expand1]. unfold expand_once.
      unfold bind at 1, reads at 1, get_vec. unfold vec_at in EV. rewrite EV.
      inversion PA as [|? ? PH _]; subst. assert (T := text_of_code _ _ _ HN CH PH). unfold bind at 1, reads at 1. rewrite T.
      assert (X := inert_scope _ _ _ IN). unfold bind at 1, reads at 1. rewrite (find_var _ _ _ X).
      assert (EX : (match var_at st s (code_text t) with None => ret None | Some q => let! v := lift (vref q) in let! f := reads (function_value v) in ret (if fn_ex f then Some f else None) end) st = (Val None, st)).
      { destruct IN as ([(_ & V)|(j & v & f & V & FN & EX)] & _); rewrite V; [reflexivity|]. unfold bind, lift, reads. cbn [vref vref_obj]. rewrite (fn_value _ _ _ FN). unfold ret. rewrite EX. reflexivity. }
      unfold bind at 1. rewrite EX. unfold bind at 1, reads at 1.
      destruct (inert_macro _ _ _ h IN T) as [->|(j & fs & b & ->)]; unfold bind at 1; rewrite R1 by lia; unfold bind at 1; rewrite list_ptr_run; reflexivity.
    + cbn [nil_emptied]. eapply ca_list; [exact V2|]. apply (proj2 (adds_code _ _ A2)), C1.
Qed.
Lemma forall2_adds : forall st st' ps ts, only_adds st st' -> codes_at st ps ts -> codes_at st' ps ts.
Proof. intros st st' ps ts A. apply (proj2 (adds_code _ _ A)). Qed.
Lemma formals_replaced : forall s formals xs, symbols formals xs -> forall st actuals ars body ts,
  heap_numbered st -> codes_at st actuals ars -> Forall parsed ars -> Forall valued ars -> Forall (macro_free st s) ars -> (length xs <= length ars)%nat ->
  codes_at st body ts -> Forall valued ts ->
  exists qs st', eventually (fun n => replace_formals (run n) formals actuals body s) st (Val qs, st') /\ codes_at st' qs (subst_all xs (map nil_emptied ars) ts) /\ only_adds st st' /\ heap_numbered st'.
Proof.
  intros s formals xs F. induction F as [|p x formals xs (ip & vp & -> & SY) F IH]; intros st actuals ars body ts HN CA PA VA FR LE CB VB.
  - exists body, st. split; [exists O; intros; reflexivity|]. split; [destruct ars; exact CB|]. split; [apply adds_refl|exact HN].
  - destruct ars as [|a ars]; [cbn in LE; lia|]. inversion CA as [|q actuals' ? ? C CA']; subst. inversion PA as [|? ? PA1 PA2]; subst. inversion VA as [|? ? VA1 VA2]; subst. inversion FR as [|? ? FR1 FR2]; subst.
    assert (ARG : exists value st1, eventually (fun n => let! o := lift (deref q) in if obj_is_list o then let! r := r_expand1 (run n) q s in ret (fst r) else new_var_ptr (var_of_obj o)) st (Val value, st1)
       /\ code_at st1 value (nil_emptied a) /\ only_adds st st1 /\ heap_numbered st1).
    { inversion C as [i v|i l ps us EV CU]; subst.
      - exists (P (st_nid st) (OVar v)), (with_nid (Pos.succ (st_nid st)) st). split; [exists O; intros m _; reflexivity|]. split; [apply ca_atom|]. split; [apply adds_nid|exact HN].
      - destruct (expand1_free s st i l (CList us) HN C PA1 FR1) as (w & st1 & (n1 & R1) & C1 & A1 & H1). exists w, st1. split; [|auto]. exists n1. intros m L. unfold bind at 1, lift. cbn [deref obj_is_list].
        unfold bind at 1. rewrite R1 by lia. reflexivity. }
    destruct ARG as (value & st1 & (n1 & R1) & C1 & A1 & H1).
    destruct (replace_codes vp x false ts (proj2 SY) st1 body value (nil_emptied a) H1) as (body' & st2 & (n2 & R2) & C2 & A2 & H2).
    { eapply forall2_adds; eassumption. } { exact VB. } { exact C1. } { discriminate. }
    assert (A12 := adds_trans _ _ _ A1 A2).
    destruct (IH st2 actuals' ars body' (map (subst x (nil_emptied a)) ts) H2) as (qs & st3 & (n3 & R3) & C3 & A3 & H3); try assumption.
    { eapply forall2_adds; eassumption. } { rewrite Forall_forall in *. intros y Y. eapply adds_free; [exact A12|auto]. } { cbn in LE; lia. }
    { rewrite Forall_forall in *. intros y Y. apply in_map_iff in Y. destruct Y as (z & <- & Z). apply valued_subst; [apply valued_emptied, VA1|auto]. }
    exists qs, st3. split; [|split; [exact C3|split; [eapply adds_trans; eassumption|exact H3]]].
    exists (Nat.max n1 (Nat.max (S n2) n3)). intros m L. specialize (R1 m ltac:(lia)). cbn [replace_formals]. unfold bind at 1 in R1. unfold bind at 1.
    destruct (lift (deref q) st) as (o & sto) eqn:E0. destruct o as [o| | | |]; try discriminate R1. unfold bind at 1. rewrite R1. unfold bind at 1, lift. cbn [vref vref_obj].
    unfold bind at 1. rewrite (run_S m) at 1 by lia. cbn [step r_replace]. rewrite R2 by lia. apply R3. lia.
Qed.
Lemma arguments_begin : forall st actuals body ts, heap_numbered st -> codes_at st body ts -> Forall valued ts -> existsb (mentions $"quoted-macro-args") ts = false ->
  exists body1 st4 n4, codes_at st4 body1 ts /\ only_adds st st4 /\ heap_numbered st4 /\
   forall m h formals s, (n4 <= m)%nat -> replace_formal_arguments (run m) formals (h :: actuals) body s st = replace_formals (run m) formals actuals body1 s st4.
Proof.
  intros st actuals body ts HN CB VB NQ.
  set (st1 := more_vec actuals st).
  assert (A1 : only_adds st st1). { unfold only_adds. split; [intros l x E; apply (more_vec_old actuals st l x HN E)|]. repeat split; auto. }
  assert (H1 : heap_numbered st1) by (apply (more_vec_heap actuals st HN)).
  set (st2 := with_nid (Pos.succ (Pos.succ (st_nid st1))) st1).
  assert (A2 : only_adds st1 st2) by apply adds_nid. assert (H2 : heap_numbered st2) by exact H1.
  set (rp := P (st_nid st1) (OVar (mkv TList (OList (st_nloc st))))). set (qp := P (Pos.succ (st_nid st1)) (OVar (mkv TSym (OString n_quote)))).
  destruct (adds_list [qp; rp] st2 H2) as (A3 & H3 & V3). set (st3 := with_nid (Pos.succ (st_nid st2)) (more_vec [qp; rp] st2)) in *.
  assert (A13 := adds_trans _ _ _ A1 (adds_trans _ _ _ A2 A3)).
  destruct (replace_codes (mkv TSym (OString $"quoted-macro-args")) $"quoted-macro-args" true ts eq_refl st3 body (P (st_nid st2) (OList (st_nloc st2))) (CList [CAtom (mkv TSym (OString n_quote)); CAtom (mkv TList (OList (st_nloc st)))]) H3)
    as (body1 & st4 & (n4 & R4) & C4 & A4 & H4).
  { eapply forall2_adds; eassumption. } { exact VB. } { eapply ca_list; [exact V3|]. apply cs_cons; [apply ca_atom|]. apply cs_cons; [apply ca_atom|apply cs_nil]. } { intros _; exact NQ. }
  assert (A14 := adds_trans _ _ _ A13 A4).
  assert (ID : map (subst $"quoted-macro-args" (CList [CAtom (mkv TSym (OString n_quote)); CAtom (mkv TList (OList (st_nloc st)))])) ts = ts).
  { rewrite <- (map_id ts) at 2. apply map_ext_in. intros y Y. apply subst_none. destruct (mentions $"quoted-macro-args" y) eqn:E; [|reflexivity].
    assert (Z : existsb (mentions $"quoted-macro-args") ts = true) by (apply existsb_exists; exists y; auto). rewrite NQ in Z. discriminate Z. }
  rewrite ID in C4.
  exists body1, st4, (S n4). split; [exact C4|]. split; [exact A14|]. split; [exact H4|].
  intros m h formals s L. unfold replace_formal_arguments. cbn [tl]. unfold bind at 1. change (new_list_obj actuals st) with (Val (OList (st_nloc st)), st1). cbv iota beta.
  unfold bind at 1. change (new_var_ptr (mkv TList (OList (st_nloc st))) st1) with (Val rp, with_nid (Pos.succ (st_nid st1)) st1). cbv iota beta.
  unfold bind at 1. change (new_var_ptr (mkv TSym (OString n_quote)) (with_nid (Pos.succ (st_nid st1)) st1)) with (Val qp, st2). cbv iota beta.
  unfold bind at 1. rewrite list_ptr_run. unfold bind at 1. rewrite (run_S m) at 1 by lia. cbn [step r_replace]. fold st3. rewrite R4 by lia. reflexivity.
Qed.
Lemma arguments_replaced : forall s formals xs st h actuals ars body ts, symbols formals xs ->
  heap_numbered st -> codes_at st actuals ars -> Forall parsed ars -> Forall valued ars -> Forall (macro_free st s) ars -> (length xs <= length ars)%nat ->
  codes_at st body ts -> Forall valued ts -> existsb (mentions $"quoted-macro-args") ts = false ->
  exists qs st', eventually (fun n => replace_formal_arguments (run n) formals (h :: actuals) body s) st (Val qs, st') /\ codes_at st' qs (subst_all xs (map nil_emptied ars) ts) /\ only_adds st st' /\ heap_numbered st'.
Proof.
  intros s formals xs st h actuals ars body ts F HN CA PA VA FR LE CB VB NQ.
  destruct (arguments_begin st actuals body ts HN CB VB NQ) as (body1 & st4 & n4 & C4 & A14 & H4 & R4).
  destruct (formals_replaced s formals xs F st4 actuals ars body1 ts H4) as (qs & st5 & (n5 & R5) & C5 & A5 & H5); try assumption.
  { eapply forall2_adds; eassumption. } { rewrite Forall_forall in *. intros y Y. eapply adds_free; [exact A14|auto]. }
  exists qs, st5. split; [|split; [exact C5|split; [eapply adds_trans; eassumption|exact H5]]].
  exists (Nat.max n4 n5). intros m L. rewrite R4 by lia. apply R5. lia.
Qed.
(** A call of a macro that is evaluated at run time. *)
Lemma macro_found : forall st s h th kind formals body name, heap_numbered st -> code_at st h th -> parsed th -> name = code_text th -> macro_at st s name kind formals body ->
  exists j, get_macro h s st = Val (Some (P j (OMacro kind formals body))).
Proof.
  intros st s h th kind formals body name HN CH PH -> (i & ms & j & EM & EJ). exists j.
  assert (XG : scope_exists st s). { unfold var_at in EM. destruct (scope_at st s) as [gs|] eqn:EG; [exists gs; exact EG|discriminate]. }
  assert (XM : scope_exists st ms). { unfold var_at in EJ. destruct (scope_at st ms) as [gs|] eqn:EG; [exists gs; exact EG|discriminate]. }
  unfold get_macro. rewrite (find_var _ _ k_macros XG). cbn [obind]. change k_macros with ($"###macros###"). rewrite EM. cbn [scope_ref obind]. rewrite (text_of_code _ _ _ HN CH PH). cbn [obind].
  rewrite (find_var _ _ _ XM), EJ. reflexivity.
Qed.
Lemma macro_call : forall s sc st k l th xs formals body ts ars,
  heap_numbered st -> scope_at st s = Some sc -> macro_at st (s_global sc) (code_text th) true formals body ->
  macro_use st s l th xs formals body ts ars -> (length xs <= length ars)%nat ->
  exists p st1, code_at st1 p (CList (subst_all xs (map nil_emptied ars) ts)) /\ only_adds st st1 /\
    forall o st', evals (P k (OList l)) s st o st' <-> evals p s st1 o st'.
Proof.
  intros s sc st k l th xs formals body ts ars HN ES MA (h & rest & EV & CH & PH & F & CB & VB & NQ & CA & PA & VA & FR) LE.
  destruct (arguments_replaced s formals xs st h rest ars body ts F HN CA PA VA FR LE CB VB NQ) as (qs & st1 & (n1 & R1) & C1 & A1 & H1).
  destruct (adds_list qs st1 H1) as (A2 & H2 & V2). set (st2 := with_nid (Pos.succ (st_nid st1)) (more_vec qs st1)) in *.
  exists (P (st_nid st1) (OList (st_nloc st1))), st2. split; [eapply ca_list; [exact V2|eapply forall2_adds; eassumption]|]. split; [eapply adds_trans; eassumption|].
  destruct (macro_found _ _ _ _ _ _ _ _ HN CH PH eq_refl MA) as (j & GM).
  assert (STEP : forall m, (n1 <= m)%nat -> r_eval (run (S m)) (P k (OList l)) s st = r_eval (run m) (P (st_nid st1) (OList (st_nloc st1))) s st2).
  { intros m L. cbn [run step r_eval]. unfold eval_ast. unfold bind at 1, reads at 1. cbn [list_ref deref obind]. unfold get_vec. unfold vec_at in EV. rewrite EV. unfold eval_list, global_of. unfold bind at 1, bind at 1, reads at 1, get_scope.
    unfold scope_at in ES. rewrite ES. unfold ret. unfold bind at 1, reads at 1. rewrite GM. unfold bind at 1. rewrite R1 by lia. unfold bind at 1. rewrite list_ptr_run. reflexivity. }
  intros o st'. split; intros (n & E & N).
  - exists (Nat.max n n1). split; [|exact N]. rewrite <- STEP by lia. eapply (ends_at _ (fun n => r_eval (run n) _ s)); [apply mono_eval|exact E|exact N|lia].
  - exists (S (Nat.max n n1)). split; [|exact N]. rewrite STEP by lia. eapply (ends_at _ (fun n => r_eval (run n) _ s)); [apply mono_eval|exact E|exact N|lia].
Qed.
(** Too few arguments. *)
Lemma formals_short : forall s formals xs, symbols formals xs -> forall st actuals ars body ts,
  heap_numbered st -> codes_at st actuals ars -> Forall parsed ars -> Forall valued ars -> Forall (macro_free st s) ars -> (length ars < length xs)%nat ->
  codes_at st body ts -> Forall valued ts -> exists st', eventually (fun n => replace_formals (run n) formals actuals body s) st (Undef UBIndex, st').
Proof.
  intros s formals xs F. induction F as [|p x formals xs (ip & vp & -> & SY) F IH]; intros st actuals ars body ts HN CA PA VA FR LE CB VB; [cbn in LE; lia|].
  destruct ars as [|a ars].
  - inversion CA; subst. exists st. exists O. intros m _. reflexivity.
  - inversion CA as [|q actuals' ? ? C CA']; subst. inversion PA as [|? ? PA1 PA2]; subst. inversion VA as [|? ? VA1 VA2]; subst. inversion FR as [|? ? FR1 FR2]; subst.
    assert (ARG : exists value st1, eventually (fun n => let! o := lift (deref q) in if obj_is_list o then let! r := r_expand1 (run n) q s in ret (fst r) else new_var_ptr (var_of_obj o)) st (Val value, st1)
       /\ code_at st1 value (nil_emptied a) /\ only_adds st st1 /\ heap_numbered st1).
    { inversion C as [i v|i l ps us EV CU]; subst.
      - exists (P (st_nid st) (OVar v)), (with_nid (Pos.succ (st_nid st)) st). split; [exists O; intros m _; reflexivity|]. split; [apply ca_atom|]. split; [apply adds_nid|exact HN].
      - destruct (expand1_free s st i l (CList us) HN C PA1 FR1) as (w & st1 & (n1 & R1) & C1 & A1 & H1). exists w, st1. split; [|auto]. exists n1. intros m L. unfold bind at 1, lift. cbn [deref obj_is_list].
        unfold bind at 1. rewrite R1 by lia. reflexivity. }
    destruct ARG as (value & st1 & (n1 & R1) & C1 & A1 & H1).
    destruct (replace_codes vp x false ts (proj2 SY) st1 body value (nil_emptied a) H1) as (body' & st2 & (n2 & R2) & C2 & A2 & H2).
    { eapply forall2_adds; eassumption. } { exact VB. } { exact C1. } { discriminate. }
    assert (A12 := adds_trans _ _ _ A1 A2).
    destruct (IH st2 actuals' ars body' (map (subst x (nil_emptied a)) ts) H2) as (st3 & n3 & R3); try assumption.
    { eapply forall2_adds; eassumption. } { rewrite Forall_forall in *. intros y Y. eapply adds_free; [exact A12|auto]. } { cbn in LE; lia. }
    { rewrite Forall_forall in *. intros y Y. apply in_map_iff in Y. destruct Y as (z & <- & Z). apply valued_subst; [apply valued_emptied, VA1|auto]. }
    exists st3, (Nat.max n1 (Nat.max (S n2) n3)). intros m L. specialize (R1 m ltac:(lia)). cbn [replace_formals]. unfold bind at 1 in R1. unfold bind at 1.
    destruct (lift (deref q) st) as (o & sto) eqn:E0. destruct o as [o| | | |]; try discriminate R1. unfold bind at 1. rewrite R1. unfold bind at 1, lift. cbn [vref vref_obj].
    unfold bind at 1. rewrite (run_S m) at 1 by lia. cbn [step r_replace]. rewrite R2 by lia. apply R3. lia.
Qed.
Lemma macro_short : forall s sc st k l th xs formals body ts ars,
  heap_numbered st -> scope_at st s = Some sc -> macro_at st (s_global sc) (code_text th) true formals body ->
  macro_use st s l th xs formals body ts ars -> (length ars < length xs)%nat ->
  exists st', evals (P k (OList l)) s st (Undef UBIndex) st'.
Proof.
  intros s sc st k l th xs formals body ts ars HN ES MA (h & rest & EV & CH & PH & F & CB & VB & NQ & CA & PA & VA & FR) LE.
  destruct (arguments_begin st rest body ts HN CB VB NQ) as (body1 & st4 & n4 & C4 & A14 & H4 & R4).
  destruct (formals_short s formals xs F st4 rest ars body1 ts H4) as (st5 & n5 & R5); try assumption.
  { eapply forall2_adds; eassumption. } { rewrite Forall_forall in *. intros y Y. eapply adds_free; [exact A14|auto]. }
  destruct (macro_found _ _ _ _ _ _ _ _ HN CH PH eq_refl MA) as (j & GM).
  exists st5, (S (Nat.max n4 n5)). split; [|discriminate]. cbn [run step r_eval]. unfold eval_ast. unfold bind at 1, reads at 1. cbn [list_ref deref obind]. unfold get_vec. unfold vec_at in EV. rewrite EV. unfold eval_list, global_of. unfold bind at 1, bind at 1, reads at 1, get_scope.
  unfold scope_at in ES. rewrite ES. unfold ret. unfold bind at 1, reads at 1. rewrite GM. unfold bind at 1. rewrite R4, R5 by lia. reflexivity.
Qed.
(** A call of a macro that is expanded before evaluation. *)
Lemma expand_call : forall s st k l th xs formals body ts ars,
  heap_numbered st -> quiet st s (code_text th) -> macro_at st s (code_text th) false formals body ->
  macro_use st s l th xs formals body ts ars -> (length xs <= length ars)%nat ->
  exists p st1, code_at st1 p (CList (subst_all xs (map nil_emptied ars) ts)) /\ only_adds st st1 /\
    (forall v l' es st2, evals p s st1 (Val (Some v)) st2 -> v_val v = Some (OList l') -> vec_at st2 l' = Some es ->
       exists i l2 st3, vec_at st3 l2 = Some es /\ (heap_numbered st2 -> only_adds st2 st3) /\
         forall o st', expands (P k (OList l)) s st o st' <-> expands (P i (OList l2)) s st3 o st') /\
    (forall v st2, evals p s st1 (Val (Some v)) st2 ->
       (exists z, v_val v = Some (OInt z)) \/ (exists b, v_val v = Some (OBool b)) \/ (exists t, v_val v = Some (OString t)) ->
       exists st', expands (P k (OList l)) s st (Undef UBBadCast) st') /\
    (forall v st2, evals p s st1 (Val (Some v)) st2 -> v_val v = None -> expands (P k (OList l)) s st (Undef UBNullDeref) st2) /\
    (forall e st2, evals p s st1 (Throw e) st2 -> expands (P k (OList l)) s st (Throw e) st2).
Proof.
  intros s st k l th xs formals body ts ars HN QU MA (h & rest & EV & CH & PH & F & CB & VB & NQ & CA & PA & VA & FR) LE.
  destruct (arguments_replaced s formals xs st h rest ars body ts F HN CA PA VA FR LE CB VB NQ) as (qs & st1 & (n1 & R1) & C1 & A1 & H1).
  destruct (adds_list qs st1 H1) as (A2 & H2 & V2). set (st2 := with_nid (Pos.succ (st_nid st1)) (more_vec qs st1)) in *.
  set (p := P (st_nid st1) (OList (st_nloc st1))).
  exists p, st2. split; [eapply ca_list; [exact V2|eapply forall2_adds; eassumption]|]. split; [eapply adds_trans; eassumption|].
  destruct (macro_found _ _ _ _ _ _ _ _ HN CH PH eq_refl MA) as (j & GM).
  assert (STEP : forall m, (n1 <= m)%nat -> r_expand (run (S (S m))) (P k (OList l)) s st =
     bind (bind (r_eval (run m) p s) (fun r => bind (some_var r) (fun v => match v_val v with None => undef UBNullDeref | Some o => bind (obj_copy o) (fun o' => bind (new_ptr o') (fun q => ret (q, true))) end)))
       (fun r => if snd r then r_expand (run (S m)) (fst r) s else ret (fst r)) st2).
  { intros m L. cbn [run]. set (RR := step (run m)) at 2. cbn [step r_expand]. unfold expand_loop. unfold bind at 1. cbn [step r_expand1]. unfold expand_once.
    unfold bind at 1, reads at 1, get_vec. unfold vec_at in EV. rewrite EV. unfold bind at 1, reads at 1. rewrite (text_of_code _ _ _ HN CH PH).
    assert (X : scope_exists st s). { destruct QU as [(X & _)|(i & v & f & V & _)]; [exact X|]. unfold var_at in V. destruct (scope_at st s) as [sc|] eqn:E; [exists sc; exact E|discriminate]. }
    unfold bind at 1, reads at 1. rewrite (find_var _ _ _ X).
    assert (EX : (match var_at st s (code_text th) with None => ret None | Some q => let! v := lift (vref q) in let! f := reads (function_value v) in ret (if fn_ex f then Some f else None) end) st = (Val None, st)).
    { destruct QU as [(_ & V)|(i & v & f & V & FN & EX)]; rewrite V; [reflexivity|]. unfold bind, lift, reads. cbn [vref vref_obj]. rewrite (fn_value _ _ _ FN). unfold ret. rewrite EX. reflexivity. }
    unfold bind at 1. rewrite EX. unfold bind at 1, reads at 1. rewrite GM. unfold bind at 1. rewrite R1 by lia. unfold bind at 1. rewrite list_ptr_run. fold st2 p. unfold bind at 3. reflexivity. }
  assert (AT : forall n o w m, r_eval (run n) p s st2 = (o, w) -> o <> NoFuel -> (n <= m)%nat -> r_eval (run m) p s st2 = (o, w)).
  { intros n o w m E N L. exact (ends_at _ (fun n => r_eval (run n) p s) _ _ _ n m (mono_eval p s) E N L). }
  split; [|split; [|split]].
  - intros v l' es st3 (n2 & E2 & N2) VV VE. set (st4 := more_vec es st3).
    exists (st_nid st4), (st_nloc st3), (with_nid (Pos.succ (st_nid st4)) st4). split; [apply more_vec_at|]. split.
    { intro HN3. unfold only_adds. split; [intros l2 z Z; apply (more_vec_old es st3 l2 z HN3 Z)|]. repeat split; auto. }
    assert (STEP2 : forall m, (Nat.max n1 n2 <= m)%nat -> r_expand (run (S (S m))) (P k (OList l)) s st = r_expand (run (S m)) (P (st_nid st4) (OList (st_nloc st3))) s (with_nid (Pos.succ (st_nid st4)) st4)).
    { intros m L. rewrite STEP by lia. unfold bind at 1, bind at 1. rewrite (AT _ _ _ m E2 N2) by lia. unfold bind at 1. change (some_var (Some v) st3) with (Val v, st3). cbv beta iota. rewrite VV. cbn [obj_copy]. unfold bind at 1, bind at 1, reads, get_vec. unfold vec_at in VE. rewrite VE. reflexivity. }
    intros o st'. split; intros (n & E & N).
    + exists (S (Nat.max n (Nat.max n1 n2))). split; [|exact N]. rewrite <- STEP2 by lia. apply (ends_at _ (fun n => r_expand (run n) (P k (OList l)) s) _ _ _ n); [apply mono_expand|exact E|exact N|lia].
    + exists (S (S (Nat.max n (Nat.max n1 n2)))). split; [|exact N]. rewrite STEP2 by lia. apply (ends_at _ (fun n => r_expand (run n) (P (st_nid st4) (OList (st_nloc st3))) s) _ _ _ n); [apply mono_expand|exact E|exact N|lia].
  - intros v st3 (n2 & E2 & N2) K. exists (with_nid (Pos.succ (st_nid st3)) st3), (S (S (S (Nat.max n1 n2)))). split; [|discriminate]. rewrite STEP by lia. unfold bind at 1, bind at 1. rewrite (AT _ _ _ (S (Nat.max n1 n2)) E2 N2) by lia. unfold bind at 1. change (some_var (Some v) st3) with (Val v, st3). cbv beta iota.
    destruct K as [(z & ->)|[(z & ->)|(z & ->)]]; reflexivity.
  - intros v st3 (n2 & E2 & N2) K. exists (S (S (Nat.max n1 n2))). split; [|discriminate]. rewrite STEP by lia. unfold bind at 1, bind at 1. rewrite (AT _ _ _ _ E2 N2) by lia. unfold bind at 1. change (some_var (Some v) st3) with (Val v, st3). cbv beta iota. rewrite K. reflexivity.
  - intros e st3 (n2 & E2 & N2). exists (S (S (Nat.max n1 n2))). split; [|discriminate]. rewrite STEP by lia. unfold bind at 1, bind at 1. rewrite (AT _ _ _ _ E2 N2) by lia. reflexivity.
Qed.
