(** Functions of the standard library. *)
Require Import String Ascii List ZArith Bool Lia.
Require Import PArith FMapPositive.
From Verif Require Import Base CppString Num Token Value State Show ScopeOps Builtins Table Eval LispTop SpecLex SpecParse SpecRun SpecVal SpecNum SpecList SpecForm SpecCalc SpecMacro SpecRead SpecIo SpecLang SpecLib
  LexProofs ParseProofs RunProofs ErrProofs ReadProofs LangProofs ProgProofs SampleProofs.
Import ListNotations.

(** ** Texts with blanks and comments *)
Inductive piece := At (v : variant) (b : str) | Co (c b : str) | No (b0 : str) (ps : list piece) (b1 : str).
Fixpoint piece_source (p : piece) : source :=
  match p with
  | At v b => [(atom_lexeme v, b)]
  | Co c b => [(LxComment c, b)]
  | No b0 ps b1 => (LxOpen, b0) :: flat_map piece_source ps ++ [(LxClose, b1)]
  end.
Fixpoint piece_exprs (p : piece) : list expr :=
  match p with At v _ => [EAtom (atom_kind v)] | Co _ _ => [] | No _ ps _ => [EList (flat_map piece_exprs ps)] end.
Fixpoint piece_kinds (p : piece) : list (toktype * tokval) :=
  match p with
  | At v _ => [atom_kind v]
  | Co c _ => [(TkComment, TvStr ([c_semi] ++ c ++ [c_nl]))]
  | No _ ps _ => open_kind :: flat_map piece_kinds ps ++ [close_kind]
  end.
Definition symbolb (t : str) : bool :=
  (match t with [] => false | _ => true end && forallb plain_char t) &&
  ((if list_eq_dec ascii_dec t $"+" then true else false) || (if list_eq_dec ascii_dec t $"-" then true else false) ||
   ((match t with c :: _ => negb (number_start c) | [] => false end) && (if in_dec (list_eq_dec ascii_dec) (map to_upper_c t) reserved_words then false else true))).
Definition atomb (v : variant) : bool :=
  match v_ty v, v_val v with TSym, Some (OString t) => symbolb t | TInt, Some (OInt z) => Z.leb (-2147483648) z && Z.leb z 2147483647 | _, _ => false end.
Fixpoint pieceb (p : piece) : bool := match p with At v _ => atomb v | Co _ _ => true | No _ ps _ => forallb pieceb ps end.
Lemma atomb_ok : forall v, atomb v = true -> readable_atom v.
Proof.
  intros v H. unfold atomb in H. destruct (v_ty v) eqn:T; try discriminate; destruct (v_val v) as [[]|] eqn:V; try discriminate.
  - left. eexists. split; [split; [exact T|exact V]|]. apply andb_prop in H. destruct H as [A B]. apply Z.leb_le in A, B. unfold fits. lia.
  - right. right. left. eexists. split; [split; [exact T|exact V]|]. unfold symbolb in H. apply andb_prop in H. destruct H as [A B]. apply andb_prop in A. destruct A as [A C]. split.
    + split; [destruct s; discriminate|exact C].
    + repeat destruct (list_eq_dec ascii_dec s _) in B; auto. cbn [orb] in B. apply andb_prop in B. destruct B as [B D]. right. right. split; [destruct s; [discriminate|destruct (number_start a); [discriminate|reflexivity]]|].
      destruct (in_dec _ _ _); [discriminate|assumption].
Qed.
Lemma pieces_write : forall ps, forallb pieceb ps = true -> writes_all (flat_map piece_exprs ps) (flat_map piece_kinds ps) /\ src_kinds (flat_map piece_source ps) (flat_map piece_kinds ps).
Proof.
  assert (ONE : forall p, pieceb p = true -> (forall l ks, writes_all l ks -> writes_all (piece_exprs p ++ l) (piece_kinds p ++ ks)) /\ src_kinds (piece_source p) (piece_kinds p)).
  { fix IH 1. intros [v b|c b|b0 ps b1] H; cbn [piece_exprs piece_kinds piece_source pieceb] in *.
    - destruct (kind_ok v (atomb_ok v H)) as (A & B). split; [|split; [exact A|exact Logic.I]]. intros l ks W. apply (ws_cons (EAtom (atom_kind v)) l [atom_kind v] ks); [apply w_atom, B|exact W].
    - split; [|split; [reflexivity|exact Logic.I]]. intros l ks W. apply ws_comment, W.
    - assert (X : writes_all (flat_map piece_exprs ps) (flat_map piece_kinds ps) /\ src_kinds (flat_map piece_source ps) (flat_map piece_kinds ps)).
      { revert ps H. fix IHL 1. intros [|p ps] H; [split; [constructor|exact Logic.I]|]. cbn [flat_map forallb] in *. apply andb_prop in H. destruct H as [H1 H2]. destruct (IH p H1) as [A B]. destruct (IHL ps H2) as [C D].
        split; [apply A, C|apply src_kinds_app_intro; assumption]. }
      destruct X as [X Y]. split; [|split; [reflexivity|apply src_kinds_app_intro; [exact Y|split; [reflexivity|exact Logic.I]]]].
      intros l ks W. change (open_kind :: flat_map piece_kinds ps ++ [close_kind]) with ((open_kind :: flat_map piece_kinds ps) ++ [close_kind]). 
      apply (ws_cons (EList (flat_map piece_exprs ps)) l ((open_kind :: flat_map piece_kinds ps) ++ [close_kind]) ks); [apply w_list, X|exact W]. }
  intro ps. induction ps as [|p ps IH]; intro H; [split; [constructor|exact Logic.I]|]. cbn [flat_map forallb] in *. apply andb_prop in H. destruct H as [H1 H2]. destruct (ONE p H1) as [A B]. destruct (IH H2) as [C D].
  split; [apply A, C|apply src_kinds_app_intro; assumption].
Qed.
Fixpoint sourceb (s : source) : bool :=
  match s with
  | [] => true
  | (x, b) :: s' =>
    (match x with
     | LxWord w => (match w with [] => false | _ => true end) && forallb plain_char w
     | LxComment c => (match c with [] => false | _ => true end) && forallb (fun a => negb (Ascii.eqb a c_nl) && is_7bit a) c
     | LxOpen | LxClose => true
     | _ => false
     end) && forallb is_space b &&
    (match b, x with [], LxWord _ => match s' with (LxOpen, _) :: _ | (LxClose, _) :: _ | (LxComment _, _) :: _ => true | _ => false end | _, _ => true end) && sourceb s'
  end.
Lemma sourceb_ok : forall s z, sourceb s = true -> src_ok z -> src_ok (s ++ z).
Proof.
  induction s as [|[x b] s IH]; intros z H Z; [exact Z|]. cbn [sourceb] in H. apply andb_prop in H. destruct H as [H D]. apply andb_prop in H. destruct H as [H C]. apply andb_prop in H. destruct H as [A B].
  cbn [app src_ok]. split; [|split; [exact B|split; [|apply IH; assumption]]].
  - destruct x; try discriminate; cbn [lx_ok]; try exact Logic.I; apply andb_prop in A; destruct A as [A1 A2].
    + split; [destruct w; discriminate|exact A2].
    + split; [destruct c; discriminate|]. rewrite forallb_forall in A2. split; [|apply forallb_forall; intros a I; specialize (A2 a I); apply andb_prop in A2; apply A2].
      intro I. specialize (A2 _ I). rewrite Ascii.eqb_refl in A2. discriminate.
  - intros ->. destruct x; try discriminate; try exact Logic.I. destruct s as [|[[] ?] s]; try discriminate; cbn [app]; eauto.
Qed.
Definition sp (n : nat) : str := repeat c_space n.
Definition nl : str := [c_cr; c_nl].
Definition library_pieces : list piece :=
  [Co ($"; return the secod element of a list or a string" ++ [c_cr]) (sp 2);
   No [] [At (mkv TSym (OString $"defn")) (sp 1); At (mkv TSym (OString $"second")) (sp 1); No [] [At (mkv TSym (OString $"l")) []] (nl ++ sp 6); No [] [At (mkv TSym (OString $"first")) (sp 1); No [] [At (mkv TSym (OString $"cdr")) (sp 1); At (mkv TSym (OString $"l")) []] []] (nl ++ sp 2)] (nl ++ nl ++ sp 2);
   Co ($"; return the length of a list or a string " ++ [c_cr]) (sp 2);
   No [] [At (mkv TSym (OString $"defn")) (sp 1); At (mkv TSym (OString $"length")) (sp 1); No [] [At (mkv TSym (OString $"l")) []] (nl ++ sp 6); No [] [At (mkv TSym (OString $"len")) (sp 1); At (mkv TSym (OString $"l")) []] (nl ++ sp 2)] (nl ++ nl ++ sp 2);
   Co ($"; returns the length of a string  " ++ [c_cr]) (sp 2);
   No [] [At (mkv TSym (OString $"defn")) (sp 1); At (mkv TSym (OString $"strlen")) (sp 1); No [] [At (mkv TSym (OString $"s")) []] (nl ++ sp 6); No [] [At (mkv TSym (OString $"len")) (sp 1); At (mkv TSym (OString $"s")) []] (nl ++ sp 2)] (nl ++ nl ++ sp 2);
   Co ($"; returns the number of key/value items in a dictionary" ++ [c_cr]) (sp 2);
   No [] [At (mkv TSym (OString $"defn")) (sp 1); At (mkv TSym (OString $"dict-len")) (sp 1); No [] [At (mkv TSym (OString $"d")) []] (nl ++ sp 6); No [] [At (mkv TSym (OString $"len")) (sp 1); At (mkv TSym (OString $"d")) []] (nl ++ sp 2)] (nl ++ nl ++ sp 2);
   Co ($"; returns index or position of key if the key is found in the list or string" ++ [c_cr]) (sp 2);
   No [] [At (mkv TSym (OString $"defn")) (sp 1); At (mkv TSym (OString $"find")) (sp 1); No [] [At (mkv TSym (OString $"key")) (sp 1); At (mkv TSym (OString $"_list")) []] (nl ++ sp 4); No [] [At (mkv TSym (OString $"do")) (nl ++ sp 8); No [] [At (mkv TSym (OString $"def")) (sp 1); At (mkv TSym (OString $"i")) (sp 1); At (vint 0) []] (nl ++ sp 8); No [] [At (mkv TSym (OString $"while")) (sp 1); No [] [At (mkv TSym (OString $"<")) (sp 1); At (mkv TSym (OString $"i")) (sp 1); No [] [At (mkv TSym (OString $"len")) (sp 1); At (mkv TSym (OString $"_list")) []] []] (nl ++ sp 11); No [] [At (mkv TSym (OString $"do")) (nl ++ sp 15); No [] [At (mkv TSym (OString $"if")) (sp 1); No [] [At (mkv TSym (OString $"==")) (sp 1); At (mkv TSym (OString $"key")) (sp 1); No [] [At (mkv TSym (OString $"nth")) (sp 1); At (mkv TSym (OString $"i")) (sp 1); At (mkv TSym (OString $"_list")) []] []] (nl ++ sp 18); No [] [At (mkv TSym (OString $"return")) (sp 1); At (mkv TSym (OString $"i")) []] (nl ++ sp 15)] (nl ++ sp 15); No [] [At (mkv TSym (OString $"setf")) (sp 1); At (mkv TSym (OString $"i")) (sp 1); No [] [At (mkv TSym (OString $"+")) (sp 1); At (mkv TSym (OString $"i")) (sp 1); At (vint 1) []] []] (nl ++ sp 11)] (nl ++ sp 8)] (nl ++ sp 8); No [] [At (mkv TSym (OString $"return")) (sp 1); At (vint (-1)) []] (nl ++ sp 4)] (nl ++ sp 2)] (nl)].
Lemma library_text : src_text (flat_map piece_source library_pieces) = library. Proof. vm_compute. reflexivity. Qed.
Lemma library_ok : sourceb (flat_map piece_source library_pieces) = true. Proof. vm_compute. reflexivity. Qed.
Lemma library_good : forallb pieceb library_pieces = true. Proof. vm_compute. reflexivity. Qed.

(** ** The functions *)
Definition find_test : exp := Prim $"<" [Name $"i"; Prim $"len" [Name $"_list"]].
Definition find_round : stm := Block [When (Prim $"==" [Name $"key"; Prim $"nth" [Name $"i"; Name $"_list"]]) (Return (Name $"i")); Set_ $"i" (Prim $"+" [Name $"i"; Const (NumV 1)])].
Definition library_defs : list fundef :=
  [($"second", ([$"l"], Exp (Prim $"first" [Prim $"cdr" [Name $"l"]])));
   ($"length", ([$"l"], Exp (Prim $"len" [Name $"l"])));
   ($"strlen", ([$"s"], Exp (Prim $"len" [Name $"s"])));
   ($"dict-len", ([$"d"], Exp (Prim $"len" [Name $"d"])));
   ($"find", ([$"key"; $"_list"], Block [Def $"i" (Const (NumV 0)); While find_test find_round; Return (Const (NumV (-1)))]))].
Notation T := (table library_defs).
Lemma library_named : well_named library_defs.
Proof.
  split; [|repeat (apply Forall_cons; [split; [free_n|repeat (apply Forall_cons; [free_n|]); apply Forall_nil]|]); apply Forall_nil].
  repeat (apply NoDup_cons; [cbn; intuition discriminate|]); apply NoDup_nil.
Qed.
Lemma library_program : Forall2 fun_text library_defs (flat_map piece_exprs library_pieces).
Proof.
  unfold library_defs. repeat apply Forall2_cons; try apply Forall2_nil; (eexists; split; [reflexivity|]); unfold find_test, find_round; cbn [fst snd];
  repeat first [apply xt_num; unfold fits; lia | apply xt_name | apply xs_nil | apply xs_cons | apply xt_prim; [vm_compute; intuition discriminate|] | apply ms_nil | apply ms_cons | apply mt_return | apply mt_def | apply mt_set | apply mt_block | apply mt_when | apply mt_while | apply mt_exp].
Qed.
Lemma library_runs : forall inp files e modname c s m' v r o, readable c -> stm_text s (data_expr c) -> (exists ts, c = CList ts) -> do_all T empty_store [s] NoV m' v r o ->
  exists w st', runs false false (library ++ written c) modname (init_state inp files e) (Val w) st' /\ res_is st' w v /\ st_out st' = o.
Proof.
  intros inp files e modname c s m' v r o RC TX (ts & EC) DO. destruct (source_writes c RC) as (kc & W1 & K1). destruct (pieces_write library_pieces library_good) as (W2 & K2).
  destruct (program_runs inp files e modname library_defs [s] (flat_map piece_exprs library_pieces ++ [data_expr c]) (flat_map piece_source library_pieces ++ data_source c []) (flat_map piece_kinds library_pieces ++ kc) m' v r o library_named) as (w & st' & R & V & O & _); try assumption.
  - exists (flat_map piece_exprs library_pieces), [data_expr c]. split; [reflexivity|]. split; [apply library_program|]. rewrite EC in *. cbn [data_expr] in *. constructor; [exact TX|constructor].
  - discriminate.
  - apply sourceb_ok; [apply library_ok|]. rewrite <- (app_nil_r (data_source c [])). apply source_ok; [exact RC|reflexivity|intros _; exact Logic.I|exact Logic.I].
  - apply src_kinds_app_intro; [exact K2|apply K1].
  - clear -W1 W2. assert (X : forall l ks, writes_all l ks -> forall l2 k2, writes_all l2 k2 -> writes_all (l ++ l2) (ks ++ k2)).
    { intros l ks H. induction H as [|e0 l k1 k2 H1 H2 IH|l c0 ks H IH]; intros l2 k3 H3; cbn [app]; [exact H3|rewrite <- app_assoc; apply ws_cons; auto|apply ws_comment; auto]. }
    apply X; [exact W2|]. rewrite <- (app_nil_r kc). apply ws_cons; [exact W1|constructor].
  - exists w, st'. split; [|split; assumption]. rewrite ReadProofs.src_text_app, source_text, app_nil_r, library_text in R. exact R.
Qed.
(** Arguments. *)
Definition tx (t : str) : SpecMacro.code := CAtom (mkv TString (OString t)).
Definition argument (c : SpecMacro.code) (x : exp) (v : value) : Prop := readable c /\ exp_text x (data_expr c) /\ forall F m, yields F m x v [].
Lemma num_argument : forall z, fits z -> argument (nu z) (Const (NumV z)) (NumV z).
Proof. intros z H. split; [apply nu_ok, H|]. split; [apply xt_num, H|intros; constructor]. Qed.
Lemma text_argument : forall t, bare_text t -> argument (tx t) (Const (TextV t)) (TextV t).
Proof. intros t H. split; [right; right; right; exists t; split; [split; reflexivity|exact H]|]. split; [apply xt_text|intros; constructor]. Qed.
Lemma all_arguments : forall cs xs vs, Forall2 (fun c xv => argument c (fst xv) (snd xv)) cs (combine xs vs) -> length xs = length vs -> Forall readable cs /\ exps_text xs (map data_expr cs) /\ forall F m, yield_all F m xs vs [].
Proof.
  intros cs xs. revert cs. induction xs as [|x xs IH]; intros cs [|v vs] H L; try discriminate; cbn [combine] in H; inversion H as [|c ? cs' ? A B]; subst; [repeat constructor|].
  destruct A as (A1 & A2 & A3). cbn [fst snd] in *. destruct (IH cs' vs B ltac:(cbn in L; lia)) as (B1 & B2 & B3). split; [constructor; assumption|]. split; [constructor; assumption|].
  intros F m. change (@nil ascii) with (@nil ascii ++ []). constructor; auto.
Qed.
Lemma list_argument : forall (A : Type) (f : A -> SpecMacro.code) (g : A -> value) l, (forall a, In a l -> argument (f a) (Const (g a)) (g a)) ->
  argument (CList (sy $"list" :: map f l)) (Prim $"list" (map (fun a => Const (g a)) l)) (ListV (map g l)).
Proof.
  intros A f g l H. destruct (all_arguments (map f l) (map (fun a => Const (g a)) l) (map g l)) as (B1 & B2 & B3).
  - induction l as [|a l IH]; [constructor|]. cbn [map combine]. constructor; [apply H; left; reflexivity|]. apply IH. intros b I. apply H. right. exact I.
  - rewrite !map_length. reflexivity.
  - split; [apply li_ok; constructor; [sym|exact B1]|]. split; [cbn [data_expr]; apply (xt_prim $"list"); [vm_compute; intuition discriminate|exact B2]|]. intros F m. eapply yi_prim; [apply B3|apply pr_list].
Qed.
(** Printing the value of a call. *)
Lemma call_printed : forall inp files e modname f cs xs vs v t, ~ In f private -> symbol_text f -> Forall readable cs -> exps_text xs (map data_expr cs) -> (forall F m, yield_all F m xs vs []) ->
  text_of v = Some t -> (yield_all T empty_store xs vs [] -> yields T empty_store (Call f xs) v []) ->
  exists w st', runs false false (library ++ $"(println " ++ written (CList (sy f :: cs)) ++ $")") modname (init_state inp files e) (Val (Some w)) st' /\ is_str w t /\ st_out st' = t ++ [c_nl].
Proof.
  intros inp files e modname f cs xs vs v t NP SF RC TX YA TV Y. specialize (Y (YA _ _)).
  destruct (library_runs inp files e modname (CList [sy $"println"; CList (sy f :: cs)]) (Print (Call f xs)) empty_store (TextV t) false (([] ++ t ++ [c_nl]) ++ [])) as (w & st' & R & V & O).
  - apply li_ok. constructor; [sym|]. constructor; [|constructor]. apply li_ok. constructor; [apply sy_ok, SF|exact RC].
  - cbn [data_expr]. apply (mt_print (Call f xs)). apply (xt_call f); [exact NP|exact TX].
  - eexists. reflexivity.
  - eapply da_next; [|constructor]. eapply do_print; [exact Y|exact TV].
  - destruct (res_text _ _ _ V) as (u & -> & IS). exists u, st'. split; [|split; [exact IS|rewrite app_nil_r in O; exact O]].
    exact R.
Qed.
Lemma library_tidy : forall x, In x [$"l"; $"s"; $"d"; $"key"; $"_list"; $"i"] -> tidy T x.
Proof.
  intros x I. assert (Q : free_name x /\ T x = None). { repeat (destruct I as [<-|I]; [split; [free_n|reflexivity]|]). destruct I. }
  destruct Q as ((A & B & C) & D). split; [exact A|]. split; [exact B|]. split; [exact C|exact D].
Qed.
Lemma call_one : forall f x b a v u, T f = Some ([x], Exp b) -> tidy T x -> yield_all T empty_store [a] [v] [] -> yields T (parameters_of [x] [v]) b u [] -> u <> Nothing -> yields T empty_store (Call f [a]) u [].
Proof.
  intros f x b a v u F TI Y B N. change (@nil ascii) with (@nil ascii ++ []). eapply yi_call; [exact F|exact Y|reflexivity|repeat constructor; intros []|constructor; [exact TI|constructor]|constructor; exact B|exact N].
Qed.
Lemma parameter : forall F x v, yields F (parameters_of [x] [v]) (Name x) v [].
Proof. intros F x v. constructor. cbn [parameters_of]. unfold update. destruct (list_eq_dec ascii_dec x x); [reflexivity|congruence]. Qed.
Lemma second_yields : forall a v r u, prim $"cdr" [v] r -> prim $"first" [r] u -> u <> Nothing -> yield_all T empty_store [a] [v] [] -> yields T empty_store (Call $"second" [a]) u [].
Proof.
  intros a v r u P1 P2 N Y. eapply call_one; [reflexivity|apply library_tidy; cbn; tauto|exact Y| |exact N]. eapply yi_one; [|exact P2]. eapply yi_one; [apply parameter|exact P1].
Qed.
Lemma length_yields : forall f a v n, In f [$"length"; $"strlen"] -> prim $"len" [v] (NumV n) -> yield_all T empty_store [a] [v] [] -> yields T empty_store (Call f [a]) (NumV n) [].
Proof.
  intros f a v n [<-|[<-|[]]] P Y; (eapply call_one; [reflexivity|apply library_tidy; cbn; tauto|exact Y|eapply yi_one; [apply parameter|exact P]|discriminate]).
Qed.
(** Sequences: lists and texts. *)
Definition sequence (sv : value) (els : list value) : Prop :=
  (Z.of_nat (length els) <= 2147483647)%Z /\ prim $"len" [sv] (NumV (Z.of_nat (length els))) /\ forall k v, nth_error els k = Some v -> prim $"nth" [NumV (Z.of_nat k); sv] v.
Lemma list_sequence : forall vs, short vs -> sequence (ListV vs) vs.
Proof. intros vs H. split; [exact H|]. split; [apply pr_len, H|]. intros k v N. apply pr_nth, N. Qed.
Lemma text_sequence : forall t, short t -> sequence (TextV t) (map TextV (characters t)).
Proof.
  intros t H. unfold sequence, characters. rewrite !map_length. split; [exact H|]. split; [apply pr_text_len, H|]. intros k v N. rewrite map_map in N.
  assert (LT : (k < length t)%nat). { rewrite <- (map_length (fun x => TextV [x])). apply nth_error_Some. congruence. }
  assert (E : v = TextV (firstn 1 (skipn k t))).
  { clear H LT. revert k N. induction t as [|c t IH]; intros [|k] N; cbn in N; try discriminate; [injection N as <-; reflexivity|]. cbn [skipn]. apply IH, N. }
  subst v. apply pr_text_nth. lia.
Qed.
Definition unlike (a v : value) : Prop := alike a v false.
Lemma find_rounds : forall key sv els, sequence sv els -> Forall (fun v => exists b, alike key v b) els -> forall d j m v0, (j + d = length els)%nat -> m $"key" = Some key -> m $"_list" = Some sv -> m $"i" = Some (NumV (Z.of_nat j)) ->
  Forall (unlike key) (firstn j els) ->
  exists m' v r, loops T m find_test find_round v0 m' v r [] /\
    ((r = true /\ exists k u, v = NumV (Z.of_nat k) /\ nth_error els k = Some u /\ alike key u true /\ Forall (unlike key) (firstn k els)) \/ (r = false /\ Forall (unlike key) els)).
Proof.
  intros key sv els (SH & LE & NT) AL. induction d as [|d IH]; intros j m v0 JD MK ML MI BE.
  all: assert (TE : yields T m find_test (BoolV (Z.ltb (Z.of_nat j) (Z.of_nat (length els)))) []) by (change (@nil ascii) with (@nil ascii ++ []); eapply yi_two; [constructor; exact MI|eapply yi_one; [constructor; exact ML|exact LE]|apply (pr_op Less); constructor]).
  - exists m, v0, false. split; [|right; split; [reflexivity|]; rewrite <- (firstn_all2 els (n := j)) by lia; exact BE]. constructor. rewrite (proj2 (Z.ltb_ge _ _)) in TE by lia. exact TE.
  - rewrite (proj2 (Z.ltb_lt _ _)) in TE by lia.
    destruct (nth_error els j) as [u|] eqn:N; [|exfalso; apply nth_error_None in N; lia].
    assert (AU : exists b, alike key u b) by (rewrite Forall_forall in AL; apply AL; eapply nth_error_In; exact N). destruct AU as (b & AU).
    assert (CO : yields T m (Prim $"==" [Name $"key"; Prim $"nth" [Name $"i"; Name $"_list"]]) (BoolV b) []).
    { change (@nil ascii) with (@nil ascii ++ ([] ++ [])). eapply yi_two; [constructor; exact MK|eapply yi_two; [constructor; exact MI|constructor; exact ML|apply NT, N]|apply pr_same, AU]. }
    destruct b.
    + exists m, (NumV (Z.of_nat j)), true. split; [|left; split; [reflexivity|]; exists j, u; auto]. change (@nil ascii) with ([] ++ @nil ascii). eapply lo_leave; [exact TE|]. constructor. eapply da_leave.
      change (@nil ascii) with ([] ++ @nil ascii). eapply do_when; [exact CO|]. constructor. constructor. exact MI.
    + set (m1 := update m $"i" (NumV (Z.of_nat (S j)))). destruct (IH (S j) m1 (NumV (Z.of_nat (S j)))) as (m' & v & r & LO & Q); try lia; [exact MK|exact ML|reflexivity| |].
      { clear -BE N AU. revert els BE N. induction j as [|j IHj]; intros [|x els] BE N; try discriminate; cbn in *; [injection N as ->; constructor; [exact AU|constructor]|]. inversion BE; subst. constructor; auto. }
      exists m', v, r. split; [|exact Q]. change (@nil ascii) with ([] ++ [] ++ @nil ascii). eapply lo_next; [exact TE| |exact LO]. constructor. change (@nil ascii) with ([] ++ (([] ++ []) ++ @nil ascii)). eapply da_next; [apply do_when_not, CO|].
      eapply da_next; [|constructor]. apply do_set; [apply library_tidy; cbn; tauto|rewrite MI; discriminate|]. replace (Z.of_nat (S j)) with (Z.of_nat j + 1)%Z by lia.
      eapply yi_two; [constructor; exact MI|constructor|apply (pr_op Add); constructor; unfold fits; lia].
Qed.
Lemma find_yields : forall a b key sv els, sequence sv els -> Forall (fun v => exists b, alike key v b) els -> yield_all T empty_store [a; b] [key; sv] [] ->
  exists r, yields T empty_store (Call $"find" [a; b]) (NumV r) [] /\
    ((r = (-1)%Z /\ Forall (unlike key) els) \/ (exists k u, r = Z.of_nat k /\ nth_error els k = Some u /\ alike key u true /\ Forall (unlike key) (firstn k els))).
Proof.
  intros a b key sv els SQ AL Y. set (m := parameters_of [$"key"; $"_list"] [key; sv]). set (m1 := update m $"i" (NumV 0)).
  destruct (find_rounds key sv els SQ AL (length els) 0 m1 NoV (Nat.add_0_l _) eq_refl eq_refl eq_refl ltac:(constructor)) as (m' & v & r & LO & Q).
  assert (PR : forall z m2 r2, does T m (Block [Def $"i" (Const (NumV 0)); While find_test find_round; Return (Const (NumV (-1)))]) m2 (NumV z) r2 [] -> yields T empty_store (Call $"find" [a; b]) (NumV z) []).
  { intros z m2 r2 D. change (@nil ascii) with (@nil ascii ++ []). eapply yi_call; [reflexivity|exact Y|reflexivity| | |exact D|discriminate].
    - apply NoDup_cons; [cbn; intuition discriminate|]. apply NoDup_cons; [intros []|apply NoDup_nil].
    - constructor; [apply library_tidy; cbn; tauto|]. constructor; [apply library_tidy; cbn; tauto|constructor]. }
  assert (DE : does T m (Def $"i" (Const (NumV 0))) m1 (NumV 0) false []) by (apply do_def; [apply library_tidy; cbn; tauto|constructor]).
  destruct Q as [(-> & k & u & -> & Q)|(-> & Q)].
  - exists (Z.of_nat k). split; [|right; exists k, u; auto]. apply (PR _ m' true). constructor. change (@nil ascii) with ([] ++ @nil ascii). eapply da_next; [exact DE|]. eapply da_leave. constructor. exact LO.
  - exists (-1)%Z. split; [|left; auto]. apply (PR _ m' true). constructor. change (@nil ascii) with ([] ++ ([] ++ @nil ascii)). eapply da_next; [exact DE|]. eapply da_next; [constructor; exact LO|]. eapply da_leave. constructor. constructor.
Qed.
(** The first position, for elements that are found by comparing. *)
Lemma position_first : forall (A : Type) (g : A -> value) (x : A) l r, (forall a b e, alike (g a) (g b) e -> (e = true <-> a = b)) ->
  ((r = (-1)%Z /\ Forall (unlike (g x)) (map g l)) \/ (exists k u, r = Z.of_nat k /\ nth_error (map g l) k = Some u /\ alike (g x) u true /\ Forall (unlike (g x)) (firstn k (map g l)))) -> first_at x l r.
Proof.
  intros A g x l r EQ. assert (NI : forall l', Forall (unlike (g x)) (map g l') -> ~ In x l').
  { intros l' H I. rewrite Forall_forall in H. specialize (H (g x) (in_map g _ _ I)). apply EQ in H. destruct H as [_ H]. specialize (H eq_refl). discriminate. }
  intros [(-> & H)|(k & u & -> & N & AU & H)]; [left; split; [reflexivity|apply NI, H]|]. right. exists k. split; [reflexivity|].
  rewrite nth_error_map in N. destruct (nth_error l k) as [y|]; [|discriminate]. injection N as <-. apply EQ in AU. destruct AU as [AU _]. rewrite <- (AU eq_refl). split; [reflexivity|]. apply NI. rewrite firstn_map in H. exact H.
Qed.
Lemma alike_nums : forall a b e, alike (NumV a) (NumV b) e -> (e = true <-> a = b).
Proof. intros a b e H. inversion H; subst. apply Z.eqb_eq. Qed.
Lemma alike_texts : forall a b e, alike (TextV a) (TextV b) e -> (e = true <-> a = b).
Proof. intros a b e H. inversion H; subst. destruct (list_eq_dec ascii_dec a b); intuition congruence. Qed.
Lemma words_arguments : forall c cs, words_of (c :: cs) = written c ++ arguments (map written cs).
Proof.
  intros c cs. revert c. induction cs as [|d cs IH]; intro c; [cbn; rewrite app_nil_r; reflexivity|]. change (words_of (c :: d :: cs)) with (written c ++ $" " ++ words_of (d :: cs)). rewrite IH. reflexivity.
Qed.
Lemma list_written : forall n cs, written (CList (sy n :: cs)) = $"(" ++ n ++ arguments (map written cs) ++ $")".
Proof. intros n cs. rewrite written_list, words_arguments. change (written (sy n)) with n. rewrite <- app_assoc. reflexivity. Qed.
Lemma printed : forall inp files e modname f cs xs vs v t, ~ In f private -> symbol_text f -> Forall readable cs -> exps_text xs (map data_expr cs) -> (forall F m, yield_all F m xs vs []) ->
  text_of v = Some t -> (yield_all T empty_store xs vs [] -> yields T empty_store (Call f xs) v []) ->
  prints inp files e modname (library ++ $"(println (" ++ f ++ arguments (map written cs) ++ $"))") t.
Proof.
  intros inp files e modname f cs xs vs v t NP SF RC TX YA TV Y. destruct (call_printed inp files e modname f cs xs vs v t NP SF RC TX YA TV Y) as (w & st' & R & Q). exists w, st'. split; [|exact Q].
  rewrite list_written in R. replace ($"(println (" ++ f ++ arguments (map written cs) ++ $"))") with ($"(println " ++ ($"(" ++ f ++ arguments (map written cs) ++ $")") ++ $")"); [exact R|].
  rewrite <- !app_assoc. reflexivity.
Qed.
Lemma two_arguments : forall c d x y u v, argument c x u -> argument d y v -> Forall readable [c; d] /\ exps_text [x; y] (map data_expr [c; d]) /\ forall F m, yield_all F m [x; y] [u; v] [].
Proof. intros c d x y u v A B. apply (all_arguments [c; d] [x; y] [u; v]); [constructor; [exact A|constructor; [exact B|constructor]]|reflexivity]. Qed.
Lemma one_argument : forall c x u, argument c x u -> Forall readable [c] /\ exps_text [x] (map data_expr [c]) /\ forall F m, yield_all F m [x] [u] [].
Proof. intros c x u A. apply (all_arguments [c] [x] [u]); [constructor; [exact A|constructor]|reflexivity]. Qed.
Lemma find_printed : forall inp files e modname c d x y key sv els, argument c x key -> argument d y sv -> sequence sv els -> Forall (fun v => exists b, alike key v b) els ->
  exists r, ((r = (-1)%Z /\ Forall (unlike key) els) \/ (exists k u, r = Z.of_nat k /\ nth_error els k = Some u /\ alike key u true /\ Forall (unlike key) (firstn k els))) /\
    prints inp files e modname (library ++ $"(println (find " ++ written c ++ $" " ++ written d ++ $"))") (z_to_string r).
Proof.
  intros inp files e modname c d x y key sv els A B SQ AL. destruct (two_arguments c d x y key sv A B) as (R & X & Y). destruct (find_yields x y key sv els SQ AL (Y _ _)) as (r & YF & Q). exists r. split; [exact Q|].
  assert (P := printed inp files e modname $"find" [c; d] [x; y] [key; sv] (NumV r) (z_to_string r)). cbn [map arguments concat] in P. 
  replace ($"(println (find " ++ written c ++ $" " ++ written d ++ $"))") with ($"(println (" ++ $"find" ++ arguments [written c; written d] ++ $"))").
  - apply P; auto; [vm_compute; intuition discriminate|]. split; [split; [discriminate|reflexivity]|right; right; split; [reflexivity|vm_compute; intuition discriminate]].
  - unfold arguments. cbn [map concat]. rewrite app_nil_r. cbn. rewrite <- ?app_assoc. cbn. rewrite <- ?app_assoc. reflexivity.
Qed.
Lemma one_printed : forall inp files e modname f c x v u t, In f [$"second"; $"length"; $"strlen"] -> argument c x v -> (yield_all T empty_store [x] [v] [] -> yields T empty_store (Call f [x]) u []) -> text_of u = Some t ->
  prints inp files e modname (library ++ $"(println (" ++ f ++ $" " ++ written c ++ $"))") t.
Proof.
  intros inp files e modname f c x v u t I A Y TX. destruct (one_argument c x v A) as (R & X & YA).
  assert (P := printed inp files e modname f [c] [x] [v] u t). unfold arguments in P. cbn [map concat] in P. rewrite app_nil_r in P.
  replace ($"(println (" ++ f ++ $" " ++ written c ++ $"))") with ($"(println (" ++ f ++ ($" " ++ written c) ++ $"))") by (rewrite <- !app_assoc; reflexivity).
  apply P; auto; [intro J; repeat (destruct I as [<-|I]; [vm_compute in J; intuition discriminate|]); destruct I|].
  repeat (destruct I as [<-|I]; [split; [split; [discriminate|reflexivity]|right; right; split; [reflexivity|vm_compute; intuition discriminate]]|]). destruct I.
Qed.
Lemma nums_argument : forall zs, Forall fits zs -> argument (CList (sy $"list" :: map nu zs)) (Prim $"list" (map (fun z => Const (NumV z)) zs)) (ListV (map NumV zs)).
Proof. intros zs H. apply (list_argument Z nu NumV). intros z I. apply num_argument. rewrite Forall_forall in H. apply H, I. Qed.
Lemma texts_argument : forall ts, Forall bare_text ts -> argument (CList (sy $"list" :: map tx ts)) (Prim $"list" (map (fun z => Const (TextV z)) ts)) (ListV (map TextV ts)).
Proof. intros zs H. apply (list_argument str tx TextV). intros z I. apply text_argument. rewrite Forall_forall in H. apply H, I. Qed.
Lemma nums_written : forall zs, written (CList (sy $"list" :: map nu zs)) = $"(list" ++ arguments (map z_to_string zs) ++ $")".
Proof. intro zs. rewrite list_written, map_map. reflexivity. Qed.
Lemma texts_written : forall ts, written (CList (sy $"list" :: map tx ts)) = $"(list" ++ arguments (map in_quotes ts) ++ $")".
Proof. intro zs. rewrite list_written, map_map. reflexivity. Qed.
Lemma alike_all : forall (A : Type) (g : A -> value) a l, (forall b, exists e, alike (g a) (g b) e) -> Forall (fun v => exists e, alike (g a) v e) (map g l).
Proof. intros A g a l H. apply Forall_map. apply Forall_forall. intros b _. apply H. Qed.
Theorem find_number : forall inp files e modname k zs, fits k -> Forall fits zs -> short zs ->
  exists r, first_at k zs r /\ prints inp files e modname (library ++ $"(println (find " ++ z_to_string k ++ $" " ++ ($"(list" ++ arguments (map z_to_string zs) ++ $")") ++ $"))") (z_to_string r).
Proof.
  intros inp files e modname k zs FK FZ SH. rewrite <- nums_written. destruct (find_printed inp files e modname (nu k) (CList (sy $"list" :: map nu zs)) _ _ (NumV k) (ListV (map NumV zs)) (map NumV zs) (num_argument k FK) (nums_argument zs FZ)) as (r & Q & P).
  - apply list_sequence. unfold short in *. rewrite map_length. exact SH.
  - apply alike_all. intro b. eexists. constructor.
  - exists r. split; [eapply (position_first Z NumV); [apply alike_nums|exact Q]|exact P].
Qed.
Theorem find_text : forall inp files e modname u ts, bare_text u -> Forall bare_text ts -> short ts ->
  exists r, first_at u ts r /\ prints inp files e modname (library ++ $"(println (find " ++ in_quotes u ++ $" " ++ ($"(list" ++ arguments (map in_quotes ts) ++ $")") ++ $"))") (z_to_string r).
Proof.
  intros inp files e modname k zs FK FZ SH. rewrite <- texts_written. destruct (find_printed inp files e modname (tx k) (CList (sy $"list" :: map tx zs)) _ _ (TextV k) (ListV (map TextV zs)) (map TextV zs) (text_argument k FK) (texts_argument zs FZ)) as (r & Q & P).
  - apply list_sequence. unfold short in *. rewrite map_length. exact SH.
  - apply alike_all. intro b. eexists. constructor.
  - exists r. split; [eapply (position_first str TextV); [apply alike_texts|exact Q]|exact P].
Qed.
Theorem find_character : forall inp files e modname u t, bare_text u -> bare_text t -> short t ->
  exists r, first_at u (characters t) r /\ prints inp files e modname (library ++ $"(println (find " ++ in_quotes u ++ $" " ++ in_quotes t ++ $"))") (z_to_string r).
Proof.
  intros inp files e modname u t FK FZ SH. destruct (find_printed inp files e modname (tx u) (tx t) _ _ (TextV u) (TextV t) (map TextV (characters t)) (text_argument u FK) (text_argument t FZ)) as (r & Q & P).
  - apply text_sequence, SH.
  - apply alike_all. intro b. eexists. constructor.
  - exists r. split; [eapply (position_first str TextV); [apply alike_texts|exact Q]|exact P].
Qed.
Theorem second_number : forall inp files e modname a b zs, Forall fits (a :: b :: zs) ->
  prints inp files e modname (library ++ $"(println (second " ++ ($"(list" ++ arguments (map z_to_string (a :: b :: zs)) ++ $")") ++ $"))") (z_to_string b).
Proof.
  intros inp files e modname a b zs FZ. rewrite <- nums_written. apply (one_printed inp files e modname $"second" _ _ _ (NumV b) (z_to_string b) ltac:(left; reflexivity) (nums_argument _ FZ)); [|reflexivity].
  cbn [map]. eapply second_yields; [apply pr_rest; right; left; reflexivity|apply pr_first; left; reflexivity|discriminate].
Qed.
Theorem second_character : forall inp files e modname c t, bare_text (c :: t) -> short t -> prints inp files e modname (library ++ $"(println (second " ++ in_quotes (c :: t) ++ $"))") (firstn 1 t).
Proof.
  intros inp files e modname c t B SH. apply (one_printed inp files e modname $"second" (tx (c :: t)) _ _ (TextV (firstn 1 t)) _ ltac:(left; reflexivity) (text_argument _ B)); [|reflexivity].
  eapply second_yields; [apply pr_text_rest; right; left; reflexivity|apply pr_text_first; [left; reflexivity|exact SH]|discriminate].
Qed.
Theorem length_numbers : forall inp files e modname f zs, In f [$"length"; $"strlen"] -> Forall fits zs -> short zs ->
  prints inp files e modname (library ++ $"(println (" ++ f ++ $" " ++ ($"(list" ++ arguments (map z_to_string zs) ++ $")") ++ $"))") (z_to_string (Z.of_nat (length zs))).
Proof.
  intros inp files e modname f zs I FZ SH. rewrite <- nums_written. apply (one_printed inp files e modname f _ _ _ (NumV (Z.of_nat (length zs))) _ ltac:(right; exact I) (nums_argument _ FZ)); [|reflexivity].
  apply length_yields; [exact I|]. rewrite <- (map_length NumV zs). apply pr_len. unfold short in *. rewrite map_length. exact SH.
Qed.
Theorem length_text : forall inp files e modname f t, In f [$"length"; $"strlen"] -> bare_text t -> short t ->
  prints inp files e modname (library ++ $"(println (" ++ f ++ $" " ++ in_quotes t ++ $"))") (z_to_string (Z.of_nat (length t))).
Proof.
  intros inp files e modname f t I B SH. apply (one_printed inp files e modname f (tx t) _ _ (NumV (Z.of_nat (length t))) _ ltac:(right; exact I) (text_argument _ B)); [|reflexivity].
  apply length_yields; [exact I|]. apply pr_text_len, SH.
Qed.
