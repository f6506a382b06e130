(** The command line program. *)
Require Import String Ascii List ZArith Bool Lia Permutation.
Require Import PArith FMapPositive.
From Verif Require Import Base CppString Num Token Tokenizer Parser Value State Show ScopeOps Builtins Table Eval LispTop Debugger Cli
  SpecRun SpecVal SpecText SpecLex SpecNum SpecForm SpecDebug SpecCli ClassifyProofs FuelProofs RelProofs TextProofs BuiltinProofs StrProofs NumProofs RunProofs ErrProofs DictProofs FormProofs DebugProofs PromptProofs.
Import ListNotations.

(** ** Taking options out of the list of words *)
Lemma str_eqb_spec : forall a b, reflect (a = b) (str_eqb a b).
Proof. intros a b. apply iff_reflect. symmetry. apply str_eqb_eq. Qed.
Lemma eqb_true : forall a b, str_eqb a b = true <-> a = b.
Proof. intros a b. destruct (str_eqb_spec a b); split; congruence. Qed.
Lemma eqb_same : forall a, str_eqb a a = true.
Proof. intro a. apply eqb_true. reflexivity. Qed.
Lemma eqb_sym : forall a b, str_eqb a b = str_eqb b a.
Proof. intros a b. destruct (str_eqb_spec a b), (str_eqb_spec b a); congruence. Qed.
Lemma existsb_in : forall w l, existsb (fun a => str_eqb a w) l = true <-> In w l.
Proof.
  intros w l. rewrite existsb_exists. split; [intros (x & I & E)|intro I; exists w; split; [exact I|apply eqb_same]]. apply eqb_true in E. subst. exact I.
Qed.
Lemma has_in : forall os w, has os w = true <-> In w os.
Proof.
  intros os w. unfold has. rewrite existsb_exists. split; [intros (x & I & E)|intro I; exists w; split; [exact I|apply eqb_same]]. apply eqb_true in E. subst. exact I.
Qed.
Lemma existsb_has : forall w l, existsb (fun a => str_eqb a w) l = has l w.
Proof. intros w l. unfold has. induction l as [|a l IH]; [reflexivity|]. cbn [existsb]. rewrite IH, (eqb_sym a w). reflexivity. Qed.
Lemma has_remove : forall v w l, v <> w -> has (remove_first v l) w = has l w.
Proof.
  intros v w l N. unfold has. induction l as [|a l IH]; [reflexivity|]. cbn [remove_first existsb]. destruct (str_eqb_spec a v) as [->|NE].
  - destruct (str_eqb_spec w v); [congruence|]. reflexivity.
  - cbn [existsb]. rewrite IH. reflexivity.
Qed.
Lemma remove_absent : forall w l, ~ In w l -> remove_first w l = l.
Proof.
  intros w l. induction l as [|a l IH]; [reflexivity|]. cbn [remove_first In]. intro N. destruct (str_eqb_spec a w) as [->|NE]; [tauto|]. rewrite IH by tauto. reflexivity.
Qed.
Lemma remove_app : forall w l1 l2, In w l1 -> remove_first w (l1 ++ l2) = remove_first w l1 ++ l2.
Proof.
  intros w l1 l2. induction l1 as [|a l1 IH]; cbn [In app remove_first]; [tauto|]. intros I. destruct (str_eqb_spec a w) as [->|NE]; [reflexivity|]. cbn [app]. rewrite IH by intuition. reflexivity.
Qed.
Lemma remove_end : forall w l, ~ In w l -> remove_first w (l ++ [w]) = l.
Proof.
  intros w l. induction l as [|a l IH]; cbn [In app remove_first]; [rewrite eqb_same; reflexivity|]. intro N. destruct (str_eqb_spec a w) as [->|NE]; [tauto|]. rewrite IH by tauto. reflexivity.
Qed.
Lemma remove_app_end : forall v w l, v <> w -> remove_first v (l ++ [w]) = remove_first v l ++ [w].
Proof.
  intros v w l N. induction l as [|a l IH]; cbn [app remove_first].
  - destruct (str_eqb_spec w v); [congruence|reflexivity].
  - destruct (str_eqb a v); [reflexivity|]. rewrite IH. reflexivity.
Qed.
Definition strip (ws args : list str) : list str := fold_left (fun a w => remove_first w a) ws args.
Lemma strip_end : forall ws w l, ~ In w ws -> strip ws (l ++ [w]) = strip ws l ++ [w].
Proof.
  unfold strip. induction ws as [|v ws IH]; intros w l N; cbn [fold_left]; [reflexivity|]. cbn [In] in N. rewrite remove_app_end by (intro E; apply N; left; exact E). apply IH. tauto.
Qed.
Lemma remove_in : forall v w l, In w (remove_first v l) -> In w l.
Proof. intros v w l. induction l as [|a l IH]; cbn [remove_first]; [auto|]. destruct (str_eqb a v); cbn [In]; tauto. Qed.
Lemma strip_in : forall ws w l, In w (strip ws l) -> In w l.
Proof. unfold strip. induction ws as [|v ws IH]; intros w l I; cbn [fold_left] in I; [exact I|]. apply IH in I. eapply remove_in; eassumption. Qed.
Lemma strip_cons : forall ws a l, strip ws (a :: l) = if has ws a then strip (remove_first a ws) l else a :: strip ws l.
Proof.
  unfold strip, has. induction ws as [|v ws IH]; intros a l; cbn [fold_left existsb remove_first]; [reflexivity|]. destruct (str_eqb_spec a v) as [->|N].
  - rewrite eqb_same. reflexivity.
  - cbn [orb]. rewrite IH. destruct (existsb (str_eqb a) ws); [|reflexivity]. destruct (str_eqb_spec v a); [congruence|]. reflexivity.
Qed.
Lemma nodup_remove_in : forall w l, NoDup l -> forall x, In x (remove_first w l) <-> In x l /\ x <> w.
Proof.
  intros w l D. induction D as [|a l N D IH]; intro x; cbn [remove_first In]; [tauto|]. destruct (str_eqb_spec a w) as [->|NE].
  - split; [intro I; split; [auto|intro E; subst; contradiction]|intros [[E|I] NX]; [subst; contradiction|exact I]].
  - cbn [In]. rewrite IH. split; [intros [->|[I NX]]; auto|intros [[->|I] NX]; auto].
Qed.
Lemma nodup_remove : forall w l, NoDup l -> NoDup (remove_first w l).
Proof.
  intros w l D. induction D as [|a l N D IH]; cbn [remove_first]; [constructor|]. destruct (str_eqb_spec a w); [exact D|]. constructor; [|exact IH]. intro I. apply remove_in in I. contradiction.
Qed.
Lemma strip_extra : forall os ws known before xs, NoDup ws -> (forall w, In w ws <-> In w known /\ ~ In w before) -> extra known before os xs -> strip ws os = xs.
Proof.
  intros os. induction os as [|w os IH]; intros ws known before xs D A E; inversion E as [|w' os' xs' I N E1|w' os' xs' O E1]; subst.
  - unfold strip. clear. induction ws as [|v ws IH]; [reflexivity|exact IH].
  - rewrite strip_cons. rewrite (proj2 (has_in ws w)) by (apply A; auto). apply (IH _ known (w :: before)); [apply nodup_remove, D| |exact E1].
    intro x. rewrite (nodup_remove_in w ws D), A. cbn [In]. split; [intros ((K & B) & NX); split; [exact K|intros [E2|E2]; [congruence|tauto]]|intros (K & B); split; [split; tauto|intro E2; apply B; left; congruence]].
  - rewrite strip_cons. destruct (has ws w) eqn:HW; [apply has_in, A in HW; tauto|]. f_equal. apply (IH _ known (w :: before)); [exact D| |exact E1].
    intro x. rewrite A. cbn [In]. split; [intros (K & B); split; [exact K|intros [E2|E2]; [subst; tauto|tauto]]|tauto].
Qed.
Lemma extra_none : forall known os before, NoDup os -> incl os known -> (forall w, In w os -> ~ In w before) -> extra known before os [].
Proof.
  intros known os. induction os as [|w os IH]; intros before D I B; [constructor|]. inversion D as [|w' os' N D']; subst. apply ex_used; [apply I; left; reflexivity|apply B; left; reflexivity|].
  apply IH; [exact D'|intros x X; apply I; right; exact X|]. intros x X [->|Y]; [contradiction|]. eapply B; [right; exact X|exact Y].
Qed.

(** ** Files and options *)
Definition dash (w : str) : bool := prefixb $"-" w.
Lemma dash_dashed : forall w, dash w = true <-> dashed w.
Proof.
  intro w. unfold dash, dashed. apply prefixb_spec.
Qed.
Lemma parted_is : forall a os fs, parted a os fs <-> os = filter dash a /\ fs = script_files a.
Proof.
  intro a. unfold script_files. induction a as [|w a IH]; intros os fs; cbn [filter].
  - split; [intro H; inversion H; auto|intros (-> & ->); constructor].
  - fold (dash w). split.
    + intro H. inversion H as [|w' a' os' fs' D P|w' a' os' fs' D P]; subst; apply IH in P; destruct P as (-> & ->).
      * apply dash_dashed in D. rewrite D. auto.
      * destruct (dash w) eqn:E; [apply dash_dashed in E; contradiction|]. auto.
    + destruct (dash w) eqn:E; cbn [negb]; intros (-> & ->); constructor; try (apply IH; auto); [apply dash_dashed, E|]. intro D. apply dash_dashed in D. congruence.
Qed.
Lemma filter_remove : forall f v l, f v = true -> filter f (remove_first v l) = remove_first v (filter f l).
Proof.
  intros f v l F. induction l as [|a l IH]; [reflexivity|]. cbn [remove_first filter]. destruct (str_eqb_spec a v) as [->|N].
  - rewrite F. cbn [remove_first]. rewrite eqb_same. reflexivity.
  - cbn [filter]. rewrite IH. destruct (f a); [|reflexivity]. cbn [remove_first]. destruct (str_eqb_spec a v); [congruence|reflexivity].
Qed.
Lemma filter_remove_other : forall f v l, f v = false -> filter f (remove_first v l) = filter f l.
Proof.
  intros f v l F. induction l as [|a l IH]; [reflexivity|]. cbn [remove_first filter]. destruct (str_eqb_spec a v) as [->|N]; [rewrite F; reflexivity|]. cbn [filter]. rewrite IH. reflexivity.
Qed.
Lemma filter_strip : forall f ws l, forallb f ws = true -> filter f (strip ws l) = strip ws (filter f l).
Proof.
  unfold strip. intros f ws. induction ws as [|v ws IH]; intros l F; cbn [fold_left]; [reflexivity|]. cbn [forallb] in F. apply andb_true_iff in F. destruct F as [F1 F2].
  rewrite IH by exact F2. rewrite filter_remove by exact F1. reflexivity.
Qed.
Lemma filter_strip_other : forall f ws l, forallb (fun w => negb (f w)) ws = true -> filter f (strip ws l) = filter f l.
Proof.
  unfold strip. intros f ws. induction ws as [|v ws IH]; intros l F; cbn [fold_left]; [reflexivity|]. cbn [forallb] in F. apply andb_true_iff in F. destruct F as [F1 F2].
  rewrite IH by exact F2. apply filter_remove_other. destruct (f v); [discriminate|reflexivity].
Qed.
Lemma strip_files : forall fs l, script_files l = fs -> strip fs l = filter dash l.
Proof.
  unfold strip. induction fs as [|f fs IH]; intros l E; cbn [fold_left].
  - unfold script_files in E. induction l as [|a l IHl]; [reflexivity|]. cbn [filter] in *. fold (dash a) in E. destruct (dash a); cbn [negb] in E; [|discriminate]. rewrite <- IHl by exact E. reflexivity.
  - assert (F : dash f = false). { assert (I : In f (script_files l)) by (rewrite E; left; reflexivity). unfold script_files in I. apply filter_In in I. fold (dash f) in I. destruct (dash f); [destruct I; discriminate|reflexivity]. }
    rewrite IH.
    + apply filter_remove_other, F.
    + unfold script_files in *. rewrite filter_remove by (fold (dash f); rewrite F; reflexivity). rewrite E. cbn [remove_first]. rewrite eqb_same. reflexivity.
Qed.

(** ** The meaning of the words *)
Definition words (d : bool) : list str :=
  [$"-m"; $"-v"; $"-h"; $"--doc"; $"--html"; $"--macro-expand"; $"-x"; $"-t"; $"-e"] ++ (if d then [$"-i"; $"-d"] else []).
Definition options_of (os fs : list str) (lib : option str) (script : str) (d : bool) : options :=
  Options (has os $"-m") (has os $"--macro-expand") (has os $"-x") (has os $"--doc" || has os $"--html" || has os $"-t")
    (negb (has os $"--doc" || has os $"--html" || has os $"-e")) (d && has os $"-i") (d && has os $"-d") script lib fs.
Definition script_of (os fs : list str) : out str :=
  if has os $"-e" then match fs with f :: _ => Val f | [] => Undef UBIndex end
  else Val (if has os $"--html" then $"(htmldoc)" else if has os $"--doc" then $"(doc)" else []).
Lemma has_filter : forall w a, dash w = true -> has (filter dash a) w = has a w.
Proof.
  intros w a D. unfold has. induction a as [|x a IH]; [reflexivity|]. cbn [filter existsb]. destruct (dash x) eqn:E; cbn [existsb]; rewrite IH; [reflexivity|]. destruct (str_eqb_spec w x); [congruence|reflexivity].
Qed.
Lemma has_strip : forall ws w l, ~ In w ws -> has (strip ws l) w = has l w.
Proof.
  unfold strip. induction ws as [|v ws IH]; intros w l N; cbn [fold_left]; [reflexivity|]. cbn [In] in N. rewrite IH by tauto. apply has_remove. intro E. apply N. left. exact E.
Qed.
Lemma lib_none : forall a, Forall (fun w => ~ path_word w) a -> lib_args a = [].
Proof.
  intros a H. induction H as [|w a N H IH]; [reflexivity|]. cbn [lib_args]. destruct (prefixb $"-l=" w) eqn:E; [|exact IH]. exfalso. apply N.
  apply prefixb_spec in E. exact E.
Qed.
Lemma lib_end : forall a p, Forall (fun w => ~ path_word w) a -> lib_args (a ++ [$"-l=" ++ p]) = [$"-l=" ++ p].
Proof.
  intros a p H. induction H as [|w a N H IH]; [reflexivity|]. cbn [lib_args app]. destruct (prefixb $"-l=" w) eqn:E; [|exact IH]. exfalso. apply N.
  apply prefixb_spec in E. exact E.
Qed.
Lemma lib_more : forall a p b, b <> [] -> exists w w' r, lib_args (a ++ ($"-l=" ++ p) :: b) = w :: w' :: r.
Proof.
  intros a p b N. induction a as [|w a IH].
  - destruct b as [|b1 b]; [congruence|]. exists ($"-l=" ++ p), b1, b. reflexivity.
  - cbn [lib_args app]. destruct (prefixb $"-l=" w); [|exact IH]. destruct a as [|x a]; eexists; eexists; eexists; reflexivity.
Qed.
Lemma has_false : forall w l, ~ In w l -> has l w = false.
Proof. intros w l N. destruct (has l w) eqn:E; [apply has_in in E; contradiction|reflexivity]. Qed.
Lemma has_path_word : forall w lib a, ~ path_word w -> has (with_path lib a) w = has a w.
Proof.
  intros w [p|] a N; [|reflexivity]. unfold with_path, has. rewrite existsb_app. cbn [existsb]. destruct (str_eqb_spec w ($"-l=" ++ p)) as [->|NE]; [exfalso; apply N; exists p; reflexivity|]. rewrite !orb_false_r. reflexivity.
Qed.
Lemma files_path : forall lib a, script_files (with_path lib a) = script_files a.
Proof. intros [p|] a; [|reflexivity]. unfold with_path, script_files. rewrite filter_app. cbn. rewrite app_nil_r. reflexivity. Qed.
Lemma path_not : forall w, prefixb $"-l=" w = false -> ~ path_word w.
Proof. intros w E (p & ->). apply not_true_iff_false in E. apply E, prefixb_spec. exists p. reflexivity. Qed.
Lemma words_dash : forall d, forallb dash (words d) = true. Proof. intros []; reflexivity. Qed.
Lemma words_no_file : forall d, forallb (fun w => negb (negb (dash w))) (words d) = true. Proof. intros []; reflexivity. Qed.
Lemma strip_words : forall (d : bool) lib a, Forall (fun w => ~ path_word w) a ->
  let A := match lib with Some p => remove_first ($"-l=" ++ p) (strip (words false) (with_path lib a)) | None => strip (words false) (with_path lib a) end in
  strip (script_files a) (if d then remove_first $"-d" (remove_first $"-i" A) else A) = strip (words d) (filter dash a).
Proof.
  intros d lib a NP. assert (EA : match lib with Some p => remove_first ($"-l=" ++ p) (strip (words false) (with_path lib a)) | None => strip (words false) (with_path lib a) end = strip (words false) a).
  { destruct lib as [p|]; [|reflexivity]. cbn [with_path]. rewrite strip_end.
    - apply remove_end. intro I. apply strip_in in I. rewrite Forall_forall in NP. apply (NP _ I). exists p. reflexivity.
    - cbn. intuition discriminate. }
  cbv zeta. rewrite EA.
  assert (ED : (if d then remove_first $"-d" (remove_first $"-i" (strip (words false) a)) else strip (words false) a) = strip (words d) a) by (destruct d; reflexivity).
  rewrite ED. rewrite strip_files.
  - apply filter_strip, words_dash.
  - unfold script_files. apply (filter_strip_other (fun a0 => negb (prefixb $"-" a0))), words_no_file.
Qed.
Lemma parse_is : forall d lib a, with_path lib a <> [] -> Forall (fun w => ~ path_word w) a -> ~ In $"-v" a -> ~ In $"-h" a ->
  parse_args d (with_path lib a) = (let? script := script_of (filter dash a) (script_files a) in
    Val (match strip (words d) (filter dash a) with [] => PRun (options_of (filter dash a) (script_files a) lib script d) | rest => PUnknown lib rest end)).
Proof.
  intros d lib a NE NP NV NH. assert (S := strip_words d lib a NP). cbv zeta in S.
  assert (LA : lib_args (with_path lib a) = match lib with Some p => [$"-l=" ++ p] | None => [] end).
  { destruct lib; [apply lib_end, NP|apply lib_none, NP]. }
  unfold parse_args. destruct (with_path lib a) as [|w0 r0] eqn:EW; [congruence|]. rewrite <- EW in *. clear EW NE w0 r0.
  unfold take_option. rewrite !existsb_has, !has_remove by discriminate. rewrite !has_path_word by (apply path_not; reflexivity).
  rewrite (has_false _ _ NV), (has_false _ _ NH), files_path, LA. cbv iota. unfold script_of, options_of. rewrite !has_filter by reflexivity.
  match goal with |- obind ?s _ = _ => destruct s as [script| | | |]; cbn [obind]; try reflexivity end.
  unfold strip in S at 1.
  destruct lib as [p|], d; cbn [andb] in *; rewrite ?existsb_has, ?has_remove, ?has_path_word by first [discriminate | apply path_not; reflexivity]; 
  rewrite <- S; unfold strip, words; cbn [fold_left app]; match goal with |- context [match ?x with [] => Val _ | _ => _ end] => destruct x; reflexivity end.
Qed.

(** ** Running *)
Local Hint Resolve le_refl lr_eval lr_call lr_expand lr_expand1 lr_replace lr_quasi lr_while lr_script lr_dbg : le.
Lemma le_load : forall n m o fs r, (n <= m)%nat -> le (load_files n o fs r) (load_files m o fs r).
Proof.
  intros n m o fs. induction fs as [|f fs IH]; intros r L; cbn [load_files]; [apply le_refl|].
  assert (S := fun a b c d e => le_save_eval n m a b c d e L). assert (I := fun r => IH r L). unfold eval_one. lauto.
Qed.
Lemma le_one : forall n m a b c d e, (n <= m)%nat -> le (eval_one n a b c d e) (eval_one m a b c d e).
Proof. intros n m a b c d e L. unfold eval_one. apply le_bind; [apply le_refl|]. intros ?. apply le_save_eval, L. Qed.
Lemma le_shell : forall n m tr, (n <= m)%nat -> le (shell_loop n tr) (shell_loop m tr).
Proof.
  intros n m tr L. unfold shell_loop. apply le_bind; [apply le_refl|]. intros ?. apply le_bind; [apply le_refl|]. intros ?. apply le_bind; [|intros ?; apply le_refl].
  apply le_dbg_loop; [apply le_run, L|exact L].
Qed.
Lemma le_debug : forall n m o, (n <= m)%nat -> le (debug_loop n o) (debug_loop m o).
Proof.
  intros n m o L. unfold debug_loop. cbv zeta. apply le_bind; [apply le_refl|]. intros ?. apply le_bind; [apply le_refl|]. intros ?. apply (mono_session false _ _ _ n m L).
Qed.
Lemma mono_main : forall h args, monotone (fun n => fuel_main h n args).
Proof.
  intros h args n m L. unfold fuel_main. apply le_bind; [apply le_refl|]. intros [| | |l r|o]; [apply le_refl|apply le_refl|apply le_refl|apply le_refl|]. unfold run_options.
  apply le_bind; [apply le_refl|]. intros ?. apply le_bind; [apply le_refl|]. intros ?.
  apply le_bind; [destruct (o_shell o); [|apply le_refl]; apply le_bind; [apply le_refl|]; intros ?; apply le_shell, L|]. intros ?.
  destruct (o_debug o).
  - apply le_bind; [apply le_debug, L|]. intros ?. apply le_refl.
  - apply le_bind; [|intros ?; apply le_refl]. destruct (o_load o && negb (o_shell o)); [apply le_load, L|]. destruct (_ && _); [apply le_one, L|apply le_refl].
Qed.
Lemma mains_are : forall h args st r st1 k0, (forall n, (k0 <= n)%nat -> fuel_main h n args st = (r, st1)) -> r <> NoFuel ->
  forall o st', mains h args st o st' <-> o = r /\ st' = st1.
Proof.
  intros h args st r st1 k0 K N o st'. split.
  - intro H. apply (ends_det unit (fun n => fuel_main h n args) st o st' r st1 (mono_main h args)); [exact H|]. exists k0. split; [apply K; lia|exact N].
  - intros (-> & ->). exists k0. split; [apply K; lia|exact N].
Qed.
Lemma wrote_wrote : forall a b st, wrote b (wrote a st) = wrote (a ++ b) st.
Proof. intros. unfold wrote, with_out. cbn [st_out st_vecs st_dicts st_scopes st_nid st_nloc st_nsid st_in st_files st_env st_dbg]. rewrite <- app_assoc. reflexivity. Qed.
Lemma wrote_nothing : forall st, wrote [] st = st.
Proof. intros st. unfold wrote. rewrite app_nil_r. destruct st. reflexivity. Qed.
Lemma write_lines_is : forall ls st, write_lines ls st = (Val tt, wrote (flat_map line ls) st).
Proof.
  induction ls as [|l ls IH]; intro st; cbn [write_lines flat_map]; [rewrite wrote_nothing; reflexivity|].
  unfold bind at 1. change (write_line l st) with (@Val unit tt, wrote (line l) st). cbv iota beta. rewrite IH, wrote_wrote. reflexivity.
Qed.
Lemma at_least : forall A (f : nat -> M A) st o st', monotone f -> ends_with f st o st' -> exists k0, forall n, (k0 <= n)%nat -> f n st = (o, st').
Proof. intros A f st o st' Mo (k0 & H & N). exists k0. intros n L. exact (ends_at A f st o st' k0 n Mo H N L). Qed.

(** Writing does not change the text of a value. *)
Lemma join_ext : forall A sep (f g : A -> out str) l acc, (forall a, f a = g a) -> join_out sep f l acc = join_out sep g l acc.
Proof. intros A sep f g l. induction l as [|a l IH]; intros acc E; cbn [join_out]; [reflexivity|]. rewrite E. destruct (g a); cbn [obind]; auto. Qed.
Lemma show_wrote : forall t st n r, show n (wrote t st) r = show n st r.
Proof.
  intros t st n. induction n as [|n IH]; intro r; [reflexivity|]. cbn [show].
  assert (G : forall l, get_vec l (wrote t st) = get_vec l st) by reflexivity. assert (H : forall l, get_dict l (wrote t st) = get_dict l st) by reflexivity.
  destruct r as [o|v|v|o|[o|]]; [destruct o| | |destruct o|destruct o|]; rewrite ?IH, ?G, ?H; try reflexivity.
  - destruct (get_vec l st); cbn [obind]; try reflexivity. rewrite (join_ext _ _ _ (fun p => let? o := deref p in show n st (ShObj o))); [reflexivity|]. intros p. destruct (deref p); cbn [obind]; try reflexivity. apply IH.
  - destruct (v_ty v); destruct (v_val v) as [[]|]; rewrite ?IH; reflexivity.
  - destruct (v_val v); rewrite ?IH; reflexivity.
  - destruct (get_vec l st); cbn [obind]; try reflexivity. rewrite (join_ext _ _ _ (fun p => let? o := deref p in show n st (ShCont o))); [reflexivity|]. intros p. destruct (deref p); cbn [obind]; try reflexivity. apply IH.
  - destruct (get_dict l st); cbn [obind]; try reflexivity. rewrite (join_ext _ _ _ (fun kv : variant * option obj => let? k := show n st (ShNat (v_val (fst kv))) in
                    let? w := show n st (ShNat (snd kv)) in Val ($"[" ++ k ++ $" : " ++ w ++ $"]"))); [reflexivity|]. intros p. rewrite !IH. reflexivity.
Qed.
Lemma var_str_wrote : forall t st v, var_str v (wrote t st) = var_str v st.
Proof. intros. unfold var_str. change (show_fuel (wrote t st)) with (show_fuel st). apply show_wrote. Qed.
Lemma seconds_line : forall t, fine_text t -> Format $"Execution time = {0} s" [t] = Val ($"Execution time = " ++ t ++ $" s").
Proof.
  intros t F. etransitivity; [apply (Format_full [PLit $"Execution time = "; PHole "0"%char; PLit $" s"] [t])|].
    - repeat constructor; cbn; intuition discriminate.
    - repeat constructor; apply F.
    - unfold has_hole. cbn. intros i I H. repeat destruct I as [<-|I]; try contradiction; destruct H as [H|(wt & x & H)]; intuition discriminate.
    - reflexivity.
Qed.
Lemma closing_is : forall h os fs lib s d text t st, fine_text (h_seconds h) ->
  (text_wanted os = true -> forall x, text (wrote x st) = (Val t, wrote x st)) ->
  closing h (options_of os fs lib s d) text st = (Val tt, wrote (last_lines h os t) st).
Proof.
  intros h os fs lib s d text t st FT HT. unfold closing, options_of, text_wanted, last_lines in *. cbn [o_expand o_trace o_time].
  assert (EX : forall x, has os $"--macro-expand" = true -> text (wrote x st) = (Val t, wrote x st)) by (intros x E; apply HT; rewrite E; reflexivity).
  assert (ET : forall x, has os $"--doc" || has os $"--html" || has os $"-t" = true -> text (wrote x st) = (Val t, wrote x st)).
  { intros x E. apply HT. destruct (has os $"--macro-expand"), (has os $"-t"), (has os $"--doc"), (has os $"--html"); try reflexivity; discriminate. }
  assert (EO : has os $"-t" || has os $"--doc" || has os $"--html" = has os $"--doc" || has os $"--html" || has os $"-t") by (destruct (has os $"-t"), (has os $"--doc"), (has os $"--html"); reflexivity).
  rewrite EO. clear EO HT. unfold bind at 1.
  assert (S1 : (if has os $"--macro-expand" then let! t0 := text in write_line ($"Macro expand: " ++ t0) else ret tt) st =
     (Val tt, wrote (if has os $"--macro-expand" then line ($"Macro expand: " ++ t) else []) st)).
  { destruct (has os $"--macro-expand"); [|rewrite wrote_nothing; reflexivity]. specialize (EX [] eq_refl). rewrite wrote_nothing in EX. unfold bind. rewrite EX. reflexivity. }
  rewrite S1. unfold bind at 1. set (a := if has os $"--macro-expand" then _ else _).
  assert (S2 : (if has os $"--doc" || has os $"--html" || has os $"-t" then let! t0 := text in write_line ($"Result=" ++ t0) else ret tt) (wrote a st) =
     (Val tt, wrote (if has os $"--doc" || has os $"--html" || has os $"-t" then line ($"Result=" ++ t) else []) (wrote a st))).
  { destruct (has os $"--doc" || has os $"--html" || has os $"-t"); [|rewrite wrote_nothing; reflexivity]. specialize (ET a eq_refl). unfold bind. rewrite ET. reflexivity. }
  rewrite S2. set (b := if has os $"--doc" || _ || _ then _ else _). rewrite wrote_wrote.
  destruct (has os $"-m"); [|rewrite app_nil_r; reflexivity]. unfold write_fmt, bind, lift. rewrite (seconds_line _ FT). rewrite <- !wrote_wrote. reflexivity.
Qed.

(** ** Help, version and mistakes *)
Fixpoint occb (needle text : str) : bool := prefixb needle text || match text with [] => false | _ :: t => occb needle t end.
Lemma occb_occurs : forall n t, occb n t = true <-> occurs n t.
Proof.
  intros n t. unfold occurs, occurs_at. induction t as [|c t IH]; cbn [occb]; rewrite orb_true_iff, prefixb_spec.
  - split; [intros [(r & E)|E]; [|discriminate]; exists 0%nat, [], r; auto|]. intros (q & a & b & E & _). left. destruct a; [exists b; exact E|discriminate].
  - rewrite IH. split.
    + intros [(r & E)|(q & a & b & E & L)]; [exists 0%nat, [], r; auto|]. exists (S q), (c :: a), b. rewrite E, <- L. auto.
    + intros (q & a & b & E & L). destruct a as [|x a]; [left; exists b; exact E|]. right. injection E as _ E. exists (length a), a, b. auto.
Qed.
Definition listb (w text : str) : bool := occb ([c_nl] ++ $"  " ++ w ++ $" ") text || occb ([c_nl] ++ $"  " ++ w ++ [c_dquote]) text.
Lemma listb_listed : forall w t, listb w t = true <-> listed w t.
Proof.
  intros w t. unfold listb, listed. rewrite orb_true_iff, !occb_occurs. split.
  - intros [O|O]; [exists " "%char|exists c_dquote]; split; auto; cbn; auto.
  - intros (c & I & O). destruct I as [<-|[<-|[]]]; auto.
Qed.
Lemma help_shown : forall h args st, args = [] \/ In $"-h" args -> ~ In $"-v" args ->
  exists text, (forall o st', mains h args st o st' <-> o = Val tt /\ st' = wrote text st) /\
    forall w, In w ([$"-v"; $"-h"; $"-l="] ++ meant true) -> (listed w text <-> (In w [$"-i"; $"-d"] -> h_debugger h = true)).
Proof.
  intros h args st HH NV. exists (flat_map line (usage_lines (h_debugger h))). split.
  - apply (mains_are h args st _ _ 0%nat); [|discriminate]. intros n _. unfold fuel_main.
    assert (P : parse_args (h_debugger h) args = Val PUsage).
    { unfold parse_args. destruct args as [|a args]; [reflexivity|]. destruct HH as [E|I]; [discriminate|]. unfold take_option. rewrite !existsb_has, !has_remove by discriminate. rewrite (has_false _ _ NV), (proj2 (has_in _ _) I). reflexivity. }
    rewrite P. unfold bind at 1, lift. apply write_lines_is.
  - intros w I. rewrite <- listb_listed.
    assert (B : listb w (flat_map line (usage_lines (h_debugger h))) = implb (has [$"-i"; $"-d"] w) (h_debugger h)).
    { repeat (destruct I as [<-|I]; [destruct (h_debugger h); vm_compute; reflexivity|]). destruct I. }
    rewrite B, <- (has_in _ w). destruct (has _ w), (h_debugger h); cbn; intuition congruence.
Qed.
Lemma version_shown : forall h args st, In $"-v" args -> forall o st', mains h args st o st' <->
  o = Val tt /\ st' = wrote (line ($"fuel v0.99.6 from 16.12.2023 compiled with " ++ h_compiler h)) st.
Proof.
  intros h args st I. apply (mains_are h args st _ _ 0%nat); [|discriminate]. intros n _. unfold fuel_main.
  assert (P : parse_args (h_debugger h) args = Val PVersion).
  { unfold parse_args. destruct args as [|a args]; [destruct I|]. unfold take_option. rewrite !existsb_has, !has_remove by discriminate. rewrite (proj2 (has_in _ _) I). reflexivity. }
  rewrite P. reflexivity.
Qed.
Lemma extra_more : forall k1 k2 os b xs, (forall w, In w os -> (In w k1 <-> In w k2)) -> extra k1 b os xs -> extra k2 b os xs.
Proof.
  intros k1 k2 os. induction os as [|w os IH]; intros b xs E H; inversion H; subst; [constructor|apply ex_used|apply ex_extra]; try assumption.
  - apply E; [left; reflexivity|assumption].
  - apply IH; [intros; apply E; right; assumption|assumption].
  - rewrite <- (E w) by (left; reflexivity). assumption.
  - apply IH; [intros; apply E; right; assumption|assumption].
Qed.
Lemma words_meant : forall d w, w <> $"-v" -> w <> $"-h" -> (In w (meant d) <-> In w (words d)).
Proof. intros d w NV NH. unfold meant, words. destruct d; cbn [In app]; intuition congruence. Qed.
Lemma words_nodup : forall d, NoDup (words d).
Proof. intros []; repeat constructor; cbn; intuition discriminate. Qed.
Lemma strip_meant : forall d os xs, ~ In $"-v" os -> ~ In $"-h" os -> extra (meant d) [] os xs -> strip (words d) os = xs.
Proof.
  intros d os xs NV NH E. apply (strip_extra os (words d) (words d) []); [apply words_nodup|cbn; tauto|]. apply (extra_more (meant d)); [|exact E].
  intros w I. apply words_meant; intros ->; contradiction.
Qed.
Lemma set_lib_is : forall lib st, set_lib lib st = (Val tt, lib_set lib st).
Proof. intros [p|] []; reflexivity. Qed.
Lemma not_in_filter : forall w a, ~ In w a -> ~ In w (filter dash a).
Proof. intros w a N I. apply filter_In in I. tauto. Qed.
Lemma script_known : forall os fs, (In $"-e" os -> fs <> []) -> exists s, script_of os fs = Val s.
Proof. intros os fs E. unfold script_of. destruct (has os $"-e") eqn:H; [|eexists; reflexivity]. apply has_in in H. destruct fs; [exfalso; apply E; auto|eexists; reflexivity]. Qed.
Lemma unknown_words : forall h a lib os fs xs st, parted a os fs -> Forall (fun w => ~ path_word w) a -> ~ In $"-v" a -> ~ In $"-h" a -> (In $"-e" os -> fs <> []) ->
  extra (meant (h_debugger h)) [] os xs -> xs <> [] ->
  forall o st', mains h (with_path lib a) st o st' <-> o = Val tt /\ st' = wrote (line ($"Error: unknown option(s) " ++ flat_map (fun w => w ++ $" ") xs)) (lib_set lib st).
Proof.
  intros h a lib os fs xs st PA NP NV NH NE EX XS. apply (mains_are h _ st _ _ 0%nat); [|discriminate]. intros n _. unfold fuel_main.
  apply parted_is in PA. destruct PA as (-> & ->). assert (ST := strip_meant _ _ _ (not_in_filter _ _ NV) (not_in_filter _ _ NH) EX).
  rewrite parse_is; auto.
  - rewrite ST. destruct (script_known _ _ NE) as (s & ->). cbn [obind]. destruct xs as [|x xs]; [congruence|]. unfold bind at 1, lift at 1. unfold bind at 1. rewrite set_lib_is. rewrite <- flat_map_concat_map. reflexivity.
  - destruct a; [|destruct lib; discriminate]. cbn in EX. inversion EX; subst; congruence.
Qed.
Lemma many_paths : forall h a p b st, b <> [] -> let args := a ++ ($"-l=" ++ p) :: b in ~ In $"-v" args -> ~ In $"-h" args ->
  (In $"-e" args -> exists f, In f args /\ ~ dashed f) ->
  forall o st', mains h args st o st' <-> o = Val tt /\ st' = wrote (line $"Error: only one library path is supported") st.
Proof.
  intros h a p b st NB args NV NH NE. apply (mains_are h args st _ _ 0%nat); [|discriminate]. intros n _. unfold fuel_main.
  assert (P : parse_args (h_debugger h) args = Val PPaths).
  { unfold parse_args. destruct args as [|w0 r0] eqn:EW; [destruct a; discriminate|]. rewrite <- EW in *. 
    unfold take_option. rewrite !existsb_has, !has_remove by discriminate. rewrite (has_false _ _ NV), (has_false _ _ NH). cbv iota.
    destruct (lib_more a p b NB) as (w & w' & r & LE). fold args in LE. rewrite LE. destruct (has args $"-e") eqn:HE; [|reflexivity]. apply has_in in HE. destruct (NE HE) as (f & I & ND).
    assert (IF : In f (script_files args)). { unfold script_files. apply filter_In. split; [exact I|]. fold (dash f). destruct (dash f) eqn:D; [apply dash_dashed in D; contradiction|reflexivity]. }
    destruct (script_files args); [destruct IF|reflexivity]. }
  rewrite P. reflexivity.
Qed.

(** ** What the options do *)
Lemma meant_no : forall d w, In w (meant d) -> ~ path_word w /\ w <> $"-v" /\ w <> $"-h".
Proof.
  intros d w I. unfold meant in I. destruct d; cbn [In app] in I; repeat (destruct I as [<-|I]; [split; [apply path_not; reflexivity|split; discriminate]|]); destruct I.
Qed.
Lemma undash_no : forall w, dash w = false -> ~ path_word w /\ w <> $"-v" /\ w <> $"-h".
Proof.
  intros w E. split; [intros (p & ->); discriminate|]. split; intros ->; discriminate.
Qed.
Lemma understood_words : forall d args os fs lib, understood d args os fs lib ->
  parse_args d args = (let? s := script_of os fs in Val (PRun (options_of os fs lib s d))).
Proof.
  intros d args os fs lib U. destruct U as [a os fs lib PA ND IN NE]. apply parted_is in PA. destruct PA as (-> & ->).
  assert (F : forall w, In w a -> ~ path_word w /\ w <> $"-v" /\ w <> $"-h").
  { intros w I. destruct (dash w) eqn:E; [|apply undash_no, E]. apply (meant_no d), IN, filter_In. auto. }
  assert (NV : ~ In $"-v" a) by (intro I; destruct (F _ I) as (_ & N & _); congruence). assert (NH : ~ In $"-h" a) by (intro I; destruct (F _ I) as (_ & _ & N); congruence).
  rewrite parse_is; auto; [|apply Forall_forall; intros w I; apply F, I].
  rewrite (strip_meant d _ [] (not_in_filter _ _ NV) (not_in_filter _ _ NH)); [reflexivity|]. apply extra_none; auto.
Qed.
Lemma has_same : forall os os' w, (forall w, In w os <-> In w os') -> has os w = has os' w.
Proof. intros os os' w E. apply eq_true_iff_eq. rewrite !has_in. apply E. Qed.
Lemma order_free : forall h args args' os os' fs lib st, understood (h_debugger h) args os fs lib -> understood (h_debugger h) args' os' fs lib ->
  (forall w, In w os <-> In w os') -> forall o st', mains h args st o st' <-> mains h args' st o st'.
Proof.
  intros h args args' os os' fs lib st U U' E o st'.
  assert (P : parse_args (h_debugger h) args = parse_args (h_debugger h) args').
  { rewrite (understood_words _ _ _ _ _ U), (understood_words _ _ _ _ _ U'). unfold script_of, options_of. rewrite !(has_same os os') by exact E. reflexivity. }
  unfold mains, ends_with, fuel_main. rewrite P. tauto.
Qed.
Lemma prepare_is : forall h lib st A (f : M A), (set_lib lib ;; (if h_debugger h then set_dbg (fun _ => Dbg [] true StopAlways []) else ret tt) ;; f) st = f (prepared h lib st).
Proof.
  intros h lib st A f. unfold bind at 1. rewrite set_lib_is. unfold prepared. destruct (h_debugger h); [reflexivity|]. cbn [st_dbg lib_set]. destruct st. reflexivity.
Qed.
(** The part of a run after the preparations. *)
Definition rest_run (h : host) (n : nat) (o : options) : M unit :=
  (if o_shell o then write_lines header_lines ;; shell_loop n (o_trace o) else ret tt) ;;
  if o_debug o then
    let! had := debug_loop n o in
    closing h o (if had then unmod $"value of a debugging session" else undef UBNullDeref)
  else
    let! r :=
      if o_load o && negb (o_shell o) then load_files n o (o_files o) (Some vundef)
      else if negb (str_eqb (o_script o) []) && negb (o_shell o) then eval_one n false false (o_expand o) (o_script o) $"cmdline"
      else ret (Some vundef) in
    closing h o (result_text r).
Lemma run_is : forall h args os fs lib s n st, understood (h_debugger h) args os fs lib -> script_of os fs = Val s ->
  fuel_main h n args st = rest_run h n (options_of os fs lib s (h_debugger h)) (prepared h lib st).
Proof.
  intros h args os fs lib s n st U S. unfold fuel_main. rewrite (understood_words _ _ _ _ _ U), S. cbn [obind]. unfold bind at 1, lift at 1. apply prepare_is.
Qed.
Lemma cstr_id : forall t, c_string t -> cstr t = t.
Proof.
  unfold c_string. induction t as [|c t IH]; intro N; [reflexivity|]. cbn [cstr]. cbn [In] in N. destruct (Ascii.eqb_spec c c_nul) as [->|NE]; [exfalso; apply N; auto|]. rewrite IH by tauto. reflexivity.
Qed.
Lemma read_is : forall st f t, c_string f -> file_text st f t -> read_file f st = Val t.
Proof.
  intros st f t C H. unfold read_file, file_lookup. rewrite (cstr_id f C). f_equal. destruct H as [l1 t l2 E N|N].
  - rewrite E. clear E. induction l1 as [|[k x] l1 IH]; cbn [app List.find fst]; [rewrite eqb_same; reflexivity|]. cbn [map In fst] in N. destruct (str_eqb_spec k f) as [->|NE]; [exfalso; apply N; auto|]. apply IH. tauto.
  - induction (st_files st) as [|[k x] l IH]; cbn [List.find fst]; [reflexivity|]. cbn [map In fst] in N. destruct (str_eqb_spec k f) as [->|NE]; [exfalso; apply N; auto|]. apply IH. tauto.
Qed.
Lemma renewed_is : forall st A (f : M A), (fresh_round ;; f) st = f (renewed st).
Proof. reflexivity. Qed.
Lemma failing_bind : forall A B C (m : M A) (f : A -> M B) st o1 (o : out C) st', m st = (o1, st') -> same_failure o1 o -> exists o2, bind m f st = (o2, st') /\ same_failure o2 o.
Proof. intros A B C m f st o1 o st' E F. unfold bind. rewrite E. destruct F; eexists; split; try reflexivity; constructor. Qed.
Lemma same_type : forall A (o1 o2 : out A), same_failure o1 o2 -> o1 = o2.
Proof. intros A o1 o2 H. destruct H; reflexivity. Qed.
Lemma loaded_at : forall o fs r st oc st', Forall c_string fs -> loaded (o_verbose o) (o_trace o) (o_expand o) fs r st oc st' ->
  oc <> NoFuel /\ exists k0, forall n, (k0 <= n)%nat -> load_files n o fs r st = (oc, st').
Proof.
  intros o fs r st oc st' CS H. induction H as [r st|f fs r st t r1 st1 oc st' FT SV H IH|f fs r st t o1 oc st' FT SV SF].
  - split; [discriminate|]. exists 0%nat. reflexivity.
  - inversion CS as [|f' fs' C CS']; subst. destruct (IH CS') as (NF & k0 & K). split; [exact NF|].
    destruct (at_least _ _ _ _ _ (mono_save _ _ _ _ _) SV) as (k1 & K1). exists (k0 + k1)%nat. intros n L. cbn [load_files]. unfold bind at 1, reads at 1. rewrite (read_is _ _ _ C FT).
    unfold bind at 1, eval_one at 1. rewrite renewed_is, K1 by lia. apply K. lia.
  - inversion CS as [|f' fs' C CS']; subst. split; [destruct SF; discriminate|].
    destruct (at_least _ _ _ _ _ (mono_save _ _ _ _ _) SV) as (k1 & K1). exists k1. intros n L. cbn [load_files]. unfold bind at 1, reads at 1. rewrite (read_is _ _ _ C FT).
    unfold bind at 1, eval_one at 1. rewrite renewed_is, K1 by lia. destruct SF; reflexivity.
Qed.
Lemma result_text_is : forall v st t x, var_str v st = Val t -> result_text (Some v) (wrote x st) = (Val t, wrote x st).
Proof. intros v st t x E. unfold result_text, some_var. cbn. unfold reads. rewrite var_str_wrote, E. reflexivity. Qed.
Lemma files_run : forall h args os fs lib st r st1, understood (h_debugger h) args os fs lib -> none_of [$"-e"; $"--doc"; $"--html"; $"-i"; $"-d"] os -> Forall c_string fs -> fine_text (h_seconds h) ->
  loaded (has os $"-x") (has os $"-t") (has os $"--macro-expand") fs (Some vundef) (prepared h lib st) r st1 ->
  (forall v t, r = Val (Some v) -> (text_wanted os = true -> var_str v st1 = Val t) -> forall o st', mains h args st o st' <-> o = Val tt /\ st' = wrote (last_lines h os t) st1) /\
  (forall o1, same_failure r o1 -> forall o st', mains h args st o st' <-> o = o1 /\ st' = st1).
Proof.
  intros h args os fs lib st r st1 U NO CS FT LD.
  assert (NE : has os $"-e" = false) by (apply has_false, NO; cbn; auto). assert (ND : has os $"--doc" = false) by (apply has_false, NO; cbn; auto).
  assert (NH : has os $"--html" = false) by (apply has_false, NO; cbn; auto). assert (NI : has os $"-i" = false) by (apply has_false, NO; cbn; auto).
  assert (NG : has os $"-d" = false) by (apply has_false, NO; cbn; auto 10).
  assert (SC : script_of os fs = Val []) by (unfold script_of; rewrite NE, ND, NH; reflexivity).
  set (op := options_of os fs lib [] (h_debugger h)).
  assert (T : o_trace op = has os $"-t") by (unfold op, options_of; cbn [o_trace o_shell o_debug]; rewrite ND, NH; reflexivity).
  assert (LD' : loaded (o_verbose op) (o_trace op) (o_expand op) fs (Some vundef) (prepared h lib st) r st1) by (rewrite T; exact LD).
  destruct (loaded_at op fs _ _ _ _ CS LD') as (NF & k0 & K).
  assert (R : forall n st, rest_run h n op st = (let! r := load_files n op fs (Some vundef) in closing h op (result_text r)) st).
  { intros n st0. unfold rest_run. cbn [op options_of o_shell o_debug o_load o_files]. rewrite NI, NG, ND, NH, NE, !andb_false_r. reflexivity. }
  split.
  - intros v t -> HT. apply (mains_are h args st _ _ k0); [|discriminate]. intros n L. rewrite (run_is _ _ _ _ _ _ _ _ U SC). fold op. rewrite R. unfold bind. rewrite K by exact L.
    apply closing_is; [exact FT|]. intros W x. apply result_text_is, HT, W.
  - intros o1 SF. apply (mains_are h args st _ _ k0); [|destruct SF; discriminate]. intros n L. rewrite (run_is _ _ _ _ _ _ _ _ U SC). fold op. rewrite R. unfold bind. rewrite K by exact L. destruct SF; reflexivity.
Qed.
Lemma command_script : forall os fs c, command_text os fs c -> script_of os fs = Val c /\ negb (has os $"--doc" || has os $"--html" || has os $"-e") = false.
Proof.
  intros os fs c H. destruct H as [os fs c E|os fs E H|os fs E H D]; unfold script_of.
  - rewrite (proj2 (has_in _ _) E). rewrite orb_true_r. auto.
  - rewrite (has_false _ _ E), (proj2 (has_in _ _) H). rewrite orb_true_r. auto.
  - rewrite (has_false _ _ E), (has_false _ _ H), (proj2 (has_in _ _) D). auto.
Qed.
Lemma command_run : forall h args os fs lib c st r st1, understood (h_debugger h) args os fs lib -> none_of [$"-i"; $"-d"] os -> command_text os fs c -> c <> [] -> fine_text (h_seconds h) ->
  saves false false (has os $"--macro-expand") c $"cmdline" (renewed (prepared h lib st)) r st1 ->
  (forall v t, r = Val (Some v) -> (text_wanted os = true -> var_str v st1 = Val t) -> forall o st', mains h args st o st' <-> o = Val tt /\ st' = wrote (last_lines h os t) st1) /\
  (forall o1, same_failure r o1 -> forall o st', mains h args st o st' <-> o = o1 /\ st' = st1).
Proof.
  intros h args os fs lib c st r st1 U NO CT NC FT SV. destruct (command_script _ _ _ CT) as (SC & NL).
  assert (NI : has os $"-i" = false) by (apply has_false, NO; cbn; auto). assert (NG : has os $"-d" = false) by (apply has_false, NO; cbn; auto).
  set (op := options_of os fs lib c (h_debugger h)). destruct (at_least _ _ _ _ _ (mono_save _ _ _ _ _) SV) as (k0 & K).
  assert (EC : str_eqb c [] = false) by (destruct (str_eqb_spec c []); congruence).
  assert (R : forall n st, rest_run h n op st = (let! r := eval_one n false false (o_expand op) c $"cmdline" in closing h op (result_text r)) st).
  { intros n st0. unfold rest_run. cbn [op options_of o_shell o_debug o_load o_files o_script]. rewrite NI, NG, NL, EC, !andb_false_r. reflexivity. }
  split.
  - intros v t -> HT. apply (mains_are h args st _ _ k0); [|discriminate]. intros n L. rewrite (run_is _ _ _ _ _ _ _ _ U SC). fold op. rewrite R. unfold bind at 1, eval_one at 1. rewrite renewed_is.
    change (o_expand op) with (has os $"--macro-expand"). rewrite K by exact L. apply closing_is; [exact FT|]. intros W x. apply result_text_is, HT, W.
  - intros o1 SF. apply (mains_are h args st _ _ k0); [|destruct SF; discriminate]. intros n L. rewrite (run_is _ _ _ _ _ _ _ _ U SC). fold op. rewrite R. unfold bind at 1, eval_one at 1. rewrite renewed_is.
    change (o_expand op) with (has os $"--macro-expand"). rewrite K by exact L. destruct SF; reflexivity.
Qed.
Lemma command_missing : forall h args os lib st, understood (h_debugger h) args os [] lib -> In $"-e" os -> mains h args st (Undef UBIndex) st.
Proof.
  intros h args os lib st U I. exists 0%nat. split; [|discriminate]. unfold fuel_main. rewrite (understood_words _ _ _ _ _ U). unfold script_of. rewrite (proj2 (has_in _ _) I). reflexivity.
Qed.
(** The shell and the debugger. *)
Lemma header_is : forall st, write_lines header_lines st = (Val tt, wrote greeting st).
Proof. intro st. rewrite write_lines_is. reflexivity. Qed.
Lemma mono_shell : forall cur script, monotone (fun n => dbg_loop (run n) n true main_sid main_sid cur script).
Proof. intros cur script n m L. apply le_dbg_loop; [apply le_run, L|exact L]. Qed.
Lemma shell_run : forall h args os fs lib st r st1, understood (h_debugger h) args os fs lib -> h_debugger h = true -> In $"-i" os -> ~ In $"-d" os -> (In $"-e" os -> fs <> []) -> fine_text (h_seconds h) ->
  in_shell main_sid [] (shell_start (has os $"-t" || has os $"--doc" || has os $"--html") (wrote greeting (prepared h lib st))) r st1 ->
  (forall b, r = Val b -> forall o st', mains h args st o st' <-> o = Val tt /\ st' = wrote (last_lines h os $"<undefined>") st1) /\
  (forall o1, same_failure r o1 -> forall o st', mains h args st o st' <-> o = o1 /\ st' = st1).
Proof.
  intros h args os fs lib st r st1 U HD II ND NE FT SH. destruct (script_known _ _ NE) as (c & SC).
  apply has_in in II. apply has_false in ND. set (op := options_of os fs lib c (h_debugger h)). destruct (at_least _ _ _ _ _ (mono_shell _ _) SH) as (k0 & K).
  assert (EO : has os $"-t" || has os $"--doc" || has os $"--html" = o_trace op) by (unfold op, options_of; cbn [o_trace o_shell o_debug]; destruct (has os $"-t"), (has os $"--doc"), (has os $"--html"); reflexivity). rewrite EO in K.
  assert (R : forall n st, rest_run h n op st = ((write_lines header_lines ;; shell_loop n (o_trace op)) ;; closing h op (result_text (Some vundef))) st).
  { intros n st0. unfold rest_run. cbn [op options_of o_shell o_debug o_load o_files o_script]. rewrite HD, II, ND, !andb_false_r. reflexivity. }
  assert (S : forall n A (f : M A), (k0 <= n)%nat -> ((write_lines header_lines ;; shell_loop n (o_trace op)) ;; f) (prepared h lib st) = match r with Val b => f st1 | Throw e => (Throw e, st1) | Undef u => (Undef u, st1) | Unmod u => (Unmod u, st1) | NoFuel => (NoFuel, st1) end).
  { intros n A f L. unfold bind at 1. unfold bind at 1. rewrite header_is. unfold shell_loop. rewrite renewed_is. unfold bind at 1.
    assert (MS : forall st, mod_scope main_sid (set_tracing (o_trace op)) (renewed st) = (Val tt, shell_start (o_trace op) st)).
    { intro st0. unfold shell_start. unfold mod_scope, bind, reads, get_scope. destruct (PositiveMap.find main_sid (st_scopes (renewed st0))) eqn:E; [reflexivity|]. discriminate E. }
    rewrite MS. unfold bind at 1. rewrite K by exact L. destruct r; reflexivity. }
  split.
  - intros b ->. apply (mains_are h args st _ _ k0); [|discriminate]. intros n L. rewrite (run_is _ _ _ _ _ _ _ _ U SC). fold op. rewrite R, S by exact L. apply closing_is; [exact FT|]. intros W x. reflexivity.
  - intros o1 SF. apply (mains_are h args st _ _ k0); [|destruct SF; discriminate]. intros n L. rewrite (run_is _ _ _ _ _ _ _ _ U SC). fold op. rewrite R, S by exact L. destruct SF; reflexivity.
Qed.
Lemma debug_run : forall h args os fs lib c name st r st1, understood (h_debugger h) args os fs lib -> h_debugger h = true -> In $"-d" os -> ~ In $"-i" os -> debugged st os fs c name -> fine_text (h_seconds h) ->
  session_after false (has os $"-t" || has os $"--doc" || has os $"--html") c name (wrote greeting (prepared h lib st)) r st1 ->
  (forall b, r = Val b -> text_wanted os = false -> forall o st', mains h args st o st' <-> o = Val tt /\ st' = wrote (last_lines h os []) st1) /\
  (r = Val false -> text_wanted os = true -> forall o st', mains h args st o st' <-> o = Undef UBNullDeref /\ st' = st1) /\
  (forall o1, same_failure r o1 -> forall o st', mains h args st o st' <-> o = o1 /\ st' = st1).
Proof.
  intros h args os fs lib c name st r st1 U HD DI NI DG FT SE.
  apply has_in in DI. apply has_false in NI. destruct (at_least _ _ _ _ _ (mono_session _ _ _ _) SE) as (k0 & K). cbv beta in K.
  assert (D : exists s, script_of os fs = Val s /\ forall n st', st_files st' = st_files st ->
    debug_loop n (options_of os fs lib s (h_debugger h)) st' = debugger_loop n n (o_trace (options_of os fs lib s (h_debugger h))) c name false (wrote greeting st')).
  { destruct DG as [c CT NC|f fs' t NO EF CF TX].
    - destruct (command_script _ _ _ CT) as (SC & _). exists c. split; [exact SC|]. intros n st' _. unfold debug_loop. cbn [options_of o_script o_files]. destruct c as [|x c]; [congruence|]. unfold bind at 1. unfold ret at 1. unfold bind at 1. rewrite header_is. reflexivity.
    - exists []. split; [unfold script_of; rewrite !has_false by (apply NO; cbn; auto); reflexivity|]. intros n st' EF'. unfold debug_loop. cbn [options_of o_script o_files]. rewrite EF. unfold bind at 1, reads at 1.
      assert (TX' : file_text st' f t) by (destruct TX as [l1 t l2 E N|N]; [apply (ft_there st' f l1 t l2); [rewrite EF'; exact E|exact N]|apply ft_missing; rewrite EF'; exact N]).
      rewrite (read_is _ _ _ CF TX'). unfold bind at 1. rewrite header_is. reflexivity. }
  destruct D as (s & SC & D). set (op := options_of os fs lib s (h_debugger h)) in *.
  assert (EO : has os $"-t" || has os $"--doc" || has os $"--html" = o_trace op) by (unfold op, options_of; cbn [o_trace o_shell o_debug]; destruct (has os $"-t"), (has os $"--doc"), (has os $"--html"); reflexivity). rewrite EO in K.
  assert (R : forall n, (k0 <= n)%nat -> rest_run h n op (prepared h lib st) = match r with Val had => closing h op (if had then unmod $"value of a debugging session" else undef UBNullDeref) st1 | Throw e => (Throw e, st1) | Undef u => (Undef u, st1) | Unmod u => (Unmod u, st1) | NoFuel => (NoFuel, st1) end).
  { intros n L. unfold rest_run. replace (o_shell op) with false by (unfold op, options_of; cbn [o_trace o_shell o_debug]; rewrite NI, andb_false_r; reflexivity). replace (o_debug op) with true by (unfold op, options_of; cbn [o_trace o_shell o_debug]; rewrite HD, DI; reflexivity). unfold bind at 1. unfold ret at 1.
    unfold bind at 1. rewrite D by reflexivity. rewrite K by exact L. destruct r; reflexivity. }
  split; [|split].
  - intros b -> TW. apply (mains_are h args st _ _ k0); [|discriminate]. intros n L. rewrite (run_is _ _ _ _ _ _ _ _ U SC). fold op. rewrite R by exact L. apply closing_is; [exact FT|]. rewrite TW. discriminate.
  - intros -> TW. apply (mains_are h args st _ _ k0); [|discriminate]. intros n L. rewrite (run_is _ _ _ _ _ _ _ _ U SC). fold op. rewrite R by exact L. unfold closing. change (o_expand op) with (has os $"--macro-expand"). rewrite <- EO. unfold text_wanted in TW.
    destruct (has os $"--macro-expand"); [reflexivity|]. cbn [orb] in TW. rewrite TW. reflexivity.
  - intros o1 SF. apply (mains_are h args st _ _ k0); [|destruct SF; discriminate]. intros n L. rewrite (run_is _ _ _ _ _ _ _ _ U SC). fold op. rewrite R by exact L. destruct SF; reflexivity.
Qed.

Lemma shell_ends : forall cur script st r st1, (forall n k, (1 <= k)%nat -> dbg_loop (run n) (S k) true main_sid main_sid cur script st = (r, st1)) -> r <> NoFuel ->
  forall o st', in_shell cur script st o st' <-> o = r /\ st' = st1.
Proof.
  intros cur script st r st1 H NR o st'. split.
  - intros HS. apply (ends_det bool _ st o st' r st1 (mono_shell cur script) HS). exists 2%nat. split; [apply H; lia|exact NR].
  - intros (-> & ->). exists 2%nat. split; [apply H; lia|exact NR].
Qed.
Lemma shell_exit : forall cur script st w rest, typed st w rest -> In w [$"exit"; $"quit"; $"q"; []] ->
  forall o st', in_shell cur script st o st' <-> o = Val false /\ st' = answered st rest.
Proof.
  intros cur script st w rest T I. apply shell_ends; [|discriminate]. intros k j _. rewrite (loop_obeys _ _ _ _ _ _ _ _ _ _ T).
  repeat destruct I as [<-|I]; try contradiction; reflexivity.
Qed.
Lemma shell_end_of_input : forall cur script st, st_in st = [] -> forall o st', in_shell cur script st o st' <-> o = Val false /\ st' = wrote prompt st.
Proof.
  intros cur script st E. apply shell_ends; [|discriminate]. intros k j _. cbn [dbg_loop]. unfold bind at 1, write_out at 1. unfold bind at 1, read_line at 1.
  assert (E' : st_in (with_out (st_out st ++ dbg_prompt) st) = []) by exact E. rewrite E'. reflexivity.
Qed.
Lemma shell_goes_on : forall k0 cur script script' st st1,
  (forall n k, (k0 <= k)%nat -> (k0 <= n)%nat -> dbg_loop (run n) (S k) true main_sid main_sid cur script st = dbg_loop (run n) k true main_sid main_sid cur script' st1) ->
  forall o st', in_shell cur script st o st' <-> in_shell cur script' st1 o st'.
Proof.
  intros k0 cur script script' st st1 H o st'. split; intros (n & E & N).
  - assert (E' : dbg_loop (run (S (n + k0))) (S (n + k0)) true main_sid main_sid cur script st = (o, st')).
    { rewrite <- E. apply (mono_shell cur script n (S (n + k0)) ltac:(lia)). rewrite E. exact N. }
    rewrite H in E' by lia. exists (S (n + k0)). split; [|exact N]. rewrite <- E'.
    apply (le_dbg_loop (run (S (n + k0))) (run (S (n + k0))) (le_recs_refl _) (n + k0) (S (n + k0))); [lia|]. rewrite E'. exact N.
  - exists (S (n + k0)). split; [|exact N]. rewrite H by lia. rewrite <- E.
    apply (le_dbg_loop (run n) (run (S (n + k0))) (le_run n (S (n + k0)) ltac:(lia)) n (n + k0)); [lia|]. rewrite E. exact N.
Qed.
Lemma mono_plain : forall c s m, monotone (fun n => r_script (run n) c s m).
Proof. intros c s m n k L. apply lr_script, le_run, L. Qed.
Lemma shell_expression : forall cur script st w rest sc, typed st ("("%char :: w) rest -> scope_at st cur = Some sc ->
  (forall v st1 t, plain_scripts ("("%char :: w) cur (s_module sc) (answered st rest) (Val (Some v)) st1 -> var_str v st1 = Val t -> fine_text t ->
     forall o st', in_shell cur script st o st' <-> in_shell cur (script ++ ("("%char :: w) ++ [c_nl]) (wrote ($"result=" ++ t ++ [c_nl]) st1) o st') /\
  (forall e st1, plain_scripts ("("%char :: w) cur (s_module sc) (answered st rest) (Throw e) st1 ->
     forall o st', in_shell cur script st o st' <->
       in_shell cur script (wrote (match e with ELisp m _ | ELispBase m => $"Exception: " ++ m | _ => $"Native Exception" end ++ [c_nl]) st1) o st').
Proof.
  intros cur script st w rest sc T E.
  assert (G : get_scope cur (answered st rest) = Val sc) by (unfold get_scope, scope_at in *; cbn [st_scopes answered with_in with_out]; rewrite E; reflexivity).
  split.
  - intros v st1 t DS V FT. destruct (at_least _ _ _ _ _ (mono_plain _ _ _) DS) as (k0 & K). cbv beta in K. apply (shell_goes_on k0). intros n k _ L. rewrite (loop_obeys _ _ _ _ _ _ _ _ _ _ T). unfold obey. rewrite expression_command.
    assert (EF : Format $"result={0}" [t] = Val ($"result=" ++ t)).
    { etransitivity; [apply (Format_full [PLit $"result="; PHole "0"%char] [t])|].
      - repeat constructor; cbn; intuition discriminate.
      - repeat constructor; apply FT.
      - unfold has_hole. cbn. intros i I H. repeat destruct I as [<-|I]; try contradiction; destruct H as [H|(wt & x & H)]; intuition discriminate.
      - cbn. rewrite app_nil_r. reflexivity. }
    unfold bind at 1. unfold cmd_eval. unfold bind at 1, reads at 1. rewrite G. unfold try_catch. unfold bind at 1. rewrite (K n L). unfold bind at 1, some_var, ret at 1. unfold bind at 1, reads at 1. rewrite V.
    unfold bind at 1, write_fmt, bind at 1, lift at 1. rewrite EF. unfold write_line, write_out, wrote, ret. rewrite <- !app_assoc. reflexivity.
  - intros e st1 DS. destruct (at_least _ _ _ _ _ (mono_plain _ _ _) DS) as (k0 & K). cbv beta in K. apply (shell_goes_on k0). intros n k _ L. rewrite (loop_obeys _ _ _ _ _ _ _ _ _ _ T). unfold obey. rewrite expression_command.
    unfold bind at 1. unfold cmd_eval. unfold bind at 1, reads at 1. rewrite G. unfold try_catch. unfold bind at 1. rewrite (K n L). destruct e; reflexivity.
Qed.
(** ** Surprises *)
Lemma mains_by : forall n h args st o, fst (fuel_main h n args st) = o -> o <> NoFuel -> mains h args st o (snd (fuel_main h n args st)).
Proof. intros n h args st o E N. exists n. rewrite <- E. split; [apply surjective_pairing|congruence]. Qed.
Lemma plain_by : forall n c s m st o, fst (r_script (run n) c s m st) = o -> o <> NoFuel -> plain_scripts c s m st o (snd (r_script (run n) c s m st)).
Proof. intros n c s m st o E N. exists n. rewrite <- E. split; [apply surjective_pairing|congruence]. Qed.
Lemma saves_by : forall n vb tr ex c m st o, fst (save_eval n vb tr ex c m st) = o -> o <> NoFuel -> saves vb tr ex c m st o (snd (save_eval n vb tr ex c m st)).
Proof. intros n vb tr ex c m st o E N. exists n. rewrite <- E. split; [apply surjective_pairing|congruence]. Qed.
Lemma shells_by : forall n cur script st o, fst (dbg_loop (run n) n true main_sid main_sid cur script st) = o -> o <> NoFuel -> in_shell cur script st o (snd (dbg_loop (run n) n true main_sid main_sid cur script st)).
Proof. intros n cur script st o E N. exists n. rewrite <- E. split; [apply surjective_pairing|congruence]. Qed.
Lemma path_first : exists h args args' st o1 st1 o2 st2, Permutation args args' /\ mains h args st o1 st1 /\ mains h args' st o2 st2 /\
  st_out st1 = line $"1" /\ st_out st2 = line $"Error: only one library path is supported".
Proof.
  exists (linux true), [$"a.fuel"; $"-l=lib"], [$"-l=lib"; $"a.fuel"], (with_files []). eexists. eexists. eexists. eexists. split; [apply perm_swap|].
  split; [apply (mains_by 40); [vm_compute; reflexivity|discriminate]|]. split; [apply (mains_by 40); [vm_compute; reflexivity|discriminate]|]. split; vm_compute; reflexivity.
Qed.
Lemma twice : exists h args st st', args = [$"-x"; $"a.fuel"; $"-x"] /\ mains h args st (Val tt) st' /\ st_out st' = line $"Error: unknown option(s) -x ".
Proof.
  exists (linux true), [$"-x"; $"a.fuel"; $"-x"], (with_files []). eexists. split; [reflexivity|]. split; [apply (mains_by 40); [vm_compute; reflexivity|discriminate]|]. vm_compute. reflexivity.
Qed.
