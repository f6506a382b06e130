(** The documentation of functions. *)
Require Import String Ascii List ZArith Bool Lia.
Require Import PArith FMapPositive.
From Verif Require Import Base CppString Num Token Value State Show ScopeOps Builtins Table Eval LispTop SpecRun SpecVal SpecText SpecNum SpecForm SpecDoc
  BuiltinProofs TextProofs NumProofs FormProofs DefnProofs ErrProofs.
Import ListNotations.

(** ** The title *)
Lemma find_here : forall c a b, ~ In c a -> find [c] (a ++ c :: b) = Some (length a).
Proof.
  intros c. induction a as [|x a IH]; intros b N; cbn [app find prefixb length]; [rewrite Ascii.eqb_refl; reflexivity|].
  destruct (Ascii.eqb_spec c x) as [-> |NE]; [exfalso; apply N; left; reflexivity|]. cbn [andb]. rewrite IH; [reflexivity|]. intro I. apply N. right. exact I.
Qed.
Lemma find_nowhere : forall c a, ~ In c a -> find [c] a = None.
Proof.
  intros c. induction a as [|x a IH]; intros N; cbn [find prefixb]; [reflexivity|].
  destruct (Ascii.eqb_spec c x) as [-> |NE]; [exfalso; apply N; left; reflexivity|]. cbn [andb]. rewrite IH; [reflexivity|]. intro I. apply N. right. exact I.
Qed.
Definition title_of (sig : str) : out str :=
  if prefixb $"(" sig then
    let len := match find $" " sig with Some l => l | None => match find $")" sig with Some O => length sig | Some (S l) => l | None => length sig end end in
    substr sig 1 len
  else Val $"???".
Lemma title_found : forall sig n, title sig n -> title_of sig = Val n.
Proof.
  intros sig n H. unfold title_of. destruct H as [w r N|w r N M|w N M|t N].
  - change ($"(" ++ w ++ $" " ++ r) with ("("%char :: w ++ c_space :: r). change (prefixb $"(" ("("%char :: w ++ c_space :: r)) with true. cbv iota.
    change $" " with [c_space]. change ("("%char :: w ++ c_space :: r) with (("("%char :: w) ++ c_space :: r). rewrite find_here; [|intros [E|E]; [discriminate E|contradiction]].
    unfold substr. rewrite (proj2 (Nat.ltb_ge _ _)) by (cbn; lia). cbn [skipn app length]. f_equal. rewrite firstn_app, firstn_all2 by lia. f_equal. replace (S (length w) - length w)%nat with 1%nat by lia. reflexivity.
  - change ($"(" ++ w ++ $")" ++ r) with ("("%char :: w ++ ")"%char :: r). change (prefixb $"(" ("("%char :: w ++ ")"%char :: r)) with true. cbv iota.
    change $" " with [c_space]. change $")" with [")"%char]. rewrite find_nowhere; [|intros [E|E]; [discriminate E|]; apply in_app_or in E; destruct E as [E|[E|E]]; [apply N, in_or_app; left; exact E|discriminate E|apply N, in_or_app; right; exact E]].
    change ("("%char :: w ++ ")"%char :: r) with (("("%char :: w) ++ ")"%char :: r). rewrite find_here; [|intros [E|E]; [discriminate E|contradiction]].
    cbn [length]. unfold substr. rewrite (proj2 (Nat.ltb_ge _ _)) by (cbn; lia). cbn [skipn app]. f_equal. rewrite firstn_app, Nat.sub_diag, firstn_all2 by lia. cbn [firstn]. apply app_nil_r.
  - change ($"(" ++ w) with ("("%char :: w). change (prefixb $"(" ("("%char :: w)) with true. cbv iota. change $" " with [c_space]. change $")" with [")"%char].
    rewrite find_nowhere by (intros [E|E]; [discriminate E|contradiction]). rewrite find_nowhere by (intros [E|E]; [discriminate E|contradiction]).
    unfold substr. rewrite (proj2 (Nat.ltb_ge _ _)) by (cbn; lia). cbn [skipn length]. f_equal. apply firstn_all2. lia.
  - destruct (prefixb $"(" t) eqn:E; [|reflexivity]. apply prefixb_spec in E. destruct E as (b & E). destruct (N b E).
Qed.
Lemma title_total : forall sig, exists n, title sig n.
Proof.
  intros sig. destruct (prefixb $"(" sig) eqn:E.
  - apply prefixb_spec in E. destruct E as (b & ->). destruct (find [c_space] b) as [k|] eqn:F.
    + apply find_char in F. destruct F as (w & r & -> & _ & N). exists (w ++ $" "). apply (ti_blank w r N).
    + apply find_char_none in F. destruct (find [")"%char] b) as [k|] eqn:G.
      * apply find_char in G. destruct G as (w & r & -> & _ & N). exists w. apply (ti_closed w r); [|exact N]. intro I. apply F. apply in_app_or in I. apply in_or_app. destruct I as [I|I]; [left; exact I|right; right; exact I].
      * apply find_char_none in G. exists b. apply ti_open; assumption.
  - exists $"???". apply ti_none. intros r ->. change (prefixb $"(" ($"(" ++ r)) with true in E. discriminate.
Qed.
Lemma title_unique : forall sig a b, title sig a -> title sig b -> a = b.
Proof. intros sig a b A B. apply title_found in A. apply title_found in B. congruence. Qed.
Lemma help_title : forall f sep sp nd sd, help_string f sep sp nd sd =
  (let? name := (if prefixb $"(" (fn_sig f) then let? n := title_of (fn_sig f) in Val (nd n) else Val $"???") in
   Val (sp ++ (name ++ remark f ++ sep) ++ (sd ($"Syntax: " ++ fn_sig f) ++ sep) ++ (explained f ++ sep) ++ [c_nl])).
Proof. intros f sep sp nd sd. unfold help_string, title_of, remark, explained. destruct (prefixb $"(" (fn_sig f)); reflexivity. Qed.
Lemma entry_found : forall f t, entry_of f t -> formated_doc f = Val t.
Proof.
  intros f t (n & T & ->). apply title_found in T. unfold formated_doc. rewrite help_title.
  assert (E : (if prefixb $"(" (fn_sig f) then let? n := title_of (fn_sig f) in Val n else Val $"???") = Val n) by (rewrite T; unfold title_of in T; destruct (prefixb $"(" (fn_sig f)); [reflexivity|exact T]).
  cbv zeta beta. rewrite E. cbn [obind]. rewrite <- !app_assoc. reflexivity.
Qed.
Lemma html_found : forall f t, html_of f t -> html_doc f = Val t.
Proof.
  intros f t (n & T & ->). unfold html_doc. rewrite help_title. destruct T as [(m & T & -> & (r & R))|(N & ->)].
  - apply title_found in T. rewrite T. assert (Q : prefixb $"(" (fn_sig f) = true) by (rewrite R; reflexivity). rewrite Q. cbn [obind]. cbv beta. rewrite <- !app_assoc. reflexivity.
  - assert (Q : prefixb $"(" (fn_sig f) = false) by (destruct (prefixb $"(" (fn_sig f)) eqn:E; [apply prefixb_spec in E; destruct E as (b & E); destruct (N b E)|reflexivity]). rewrite Q. cbn [obind]. cbv beta. rewrite <- !app_assoc. reflexivity.
Qed.

(** ** Lists of entries *)
Lemma fn_value : forall v f st, is_fn v f -> function_value v st = Val f.
Proof. intros v f st (T & V). unfold function_value, is_ty. rewrite T, V. reflexivity. Qed.
Lemma listing_found : forall sel selb vs ts st, (forall k, selb k = true <-> sel k) -> listing sel vs ts -> functions_help selb vs st = Val (concat ts).
Proof.
  intros sel selb vs ts st HS H. induction H as [|n p vs ts N H IH|n i v f t vs ts N IF E H IH]; cbn [functions_help concat]; [reflexivity| |].
  - destruct (selb n) eqn:Q; [apply HS in Q; contradiction|]. cbn [obind]. rewrite IH. reflexivity.
  - apply HS in N. rewrite N. cbn [vref vref_obj obind]. rewrite (fn_value _ _ st IF). cbn [obind]. rewrite (entry_found _ _ E). cbn [obind]. rewrite IH. reflexivity.
Qed.
Lemma shown_alone : forall t : str, ~ In "{"%char t -> t <> NULL_STRING -> Format $"{0}" [t] = Val t.
Proof.
  intros t N M. change $"{0}" with (template [PHole "0"%char]). rewrite (Format_full [PHole "0"%char] [t]).
  - cbn. rewrite app_nil_r. reflexivity.
  - repeat constructor; cbn; intuition discriminate.
  - repeat constructor; assumption.
  - unfold has_hole. cbn. intros k K H. repeat destruct K as [<-|K]; try contradiction; destruct H as [H|(wt & w & H)]; intuition discriminate.
Qed.
Lemma entry_start : forall f t, entry_of f t -> exists r, t = "-"%char :: r.
Proof. intros f t (n & _ & ->). eexists. reflexivity. Qed.
Lemma html_start : forall f t, html_of f t -> exists r, t = "<"%char :: r.
Proof. intros f t (n & _ & ->). eexists. reflexivity. Qed.
Lemma overview_found : forall (entry : fnval -> str -> Prop) fmt vs ts st, (forall f t, entry f t -> fmt f = Val t /\ t <> NULL_STRING) -> overview entry vs ts -> dump_builtins fmt vs st = Val (concat (map ended ts)).
Proof.
  intros entry fmt vs ts st HE H. assert (NP : forall n, ~ starts_with $"###" n -> prefixb k_metatag n = false).
  { intros n N. destruct (prefixb k_metatag n) eqn:Q; [|reflexivity]. apply prefixb_spec in Q. contradiction. }
  induction H as [|n p vs ts N H IH|n i v vs ts N T H IH|n i v f vs ts N IF B H IH|n i v f t vs ts N IF B E NB H IH]; cbn [dump_builtins map concat]; [reflexivity|..].
  - apply prefixb_spec in N. change k_metatag with $"###". rewrite N. cbn [obind]. rewrite IH. reflexivity.
  - rewrite (NP n N). cbn [vref vref_obj obind]. assert (Q : is_ty TFun v = false) by (unfold is_ty; destruct (v_ty v); try reflexivity; congruence). rewrite Q. cbn [obind]. rewrite IH. reflexivity.
  - rewrite (NP n N). cbn [vref vref_obj obind]. assert (Q : is_ty TFun v = true) by (unfold is_ty; rewrite (proj1 IF); reflexivity). rewrite Q, (fn_value _ _ st IF). cbn [obind]. rewrite B. cbn [obind]. rewrite IH. reflexivity.
  - rewrite (NP n N). cbn [vref vref_obj obind]. assert (Q : is_ty TFun v = true) by (unfold is_ty; rewrite (proj1 IF); reflexivity). rewrite Q, (fn_value _ _ st IF). cbn [obind]. rewrite B.
    destruct (HE f t E) as (X & Y). rewrite X. cbn [obind]. rewrite (shown_alone t NB Y). cbn [obind]. rewrite IH. reflexivity.
Qed.

(** ** The functions *)
Lemma word_shown : forall p t st, word_arg p t -> ptr_str p st = Val t.
Proof. intros p t st (i & v & -> & [H|H]); [apply ptr_str_str|apply ptr_str_sym]; exact H. Qed.
Lemma items_found : forall wanted selb ps ns tss s st, (forall n k, selb k n = true <-> wanted n k) -> Forall2 word_arg ps ns -> macros_are st s [] ->
  (forall sc, scope_at st s = Some sc -> Forall2 (fun n ts => listing (wanted n) (s_vars sc) ts) ns tss) -> doc_items selb ps s st = (Val (concat (concat tss)), st).
Proof.
  intros wanted selb ps ns tss s st HS WA (sc & i & m & msc & H & X & V & M & E) L. specialize (L sc H).
  revert tss L. induction WA as [|p n ps ns W WA IH]; intros tss L; inversion L as [|? ts ? tss' L1 L2]; subst; cbn [doc_items]; [reflexivity|].
  unfold bind at 1, reads at 1. rewrite (word_shown _ _ st W). unfold bind at 1, reads at 1. rewrite (get_at _ _ _ H).
  unfold bind at 1, reads at 1. rewrite (listing_found (wanted n) (fun k => selb k n) _ ts st (HS n) L1).
  unfold bind at 1. change k_macros with ($"###macros###"). rewrite (index_at _ _ _ _ V). unfold bind at 1, lift at 1. cbn [scope_ref]. unfold bind at 1, reads at 1. rewrite (get_at _ _ _ M), E.
  unfold bind. rewrite (IH tss' L2). unfold ret. cbn [concat]. rewrite concat_app. reflexivity.
Qed.
Lemma item_crashes : forall wanted selb p ps n ts s st sc k i o ms, (forall n k, selb k n = true <-> wanted n k) -> word_arg p n -> macros_are st s ((k, P i o) :: ms) -> (forall u, o <> OScope u) ->
  scope_at st s = Some sc -> listing (wanted n) (s_vars sc) ts -> doc_items selb (p :: ps) s st = (Undef UBNullDeref, st).
Proof.
  intros wanted selb p ps n ts s st sc k i o ms HS W (sc' & j & m & msc & H' & X & V & M & E) NO H L. assert (sc' = sc) by congruence. subst sc'. cbn [doc_items].
  unfold bind at 1, reads at 1. rewrite (word_shown _ _ st W). unfold bind at 1, reads at 1. rewrite (get_at _ _ _ H).
  unfold bind at 1, reads at 1. rewrite (listing_found (wanted n) (fun k => selb k n) _ ts st (HS n) L).
  unfold bind at 1. change k_macros with ($"###macros###"). rewrite (index_at _ _ _ _ V). unfold bind at 1, lift at 1. cbn [scope_ref]. unfold bind at 1, reads at 1. rewrite (get_at _ _ _ M), E.
  destruct o; try reflexivity. destruct (NO _ eq_refl).
Qed.
Lemma starts_sel : forall n k, prefixb n k = true <-> starts_with n k.
Proof. intros n k. apply prefixb_spec. Qed.
Lemma inside_sel : forall n k, contains k n = true <-> has_inside n k.
Proof.
  intros n k. unfold contains. destruct (find n k) as [p|] eqn:F.
  - split; [intros _|reflexivity]. apply find_first in F. destruct F as ((a & b & E & _) & _). exists a, b. exact E.
  - split; [discriminate|]. intros (a & r & E). apply find_none in F. destruct F. exists (length a), a, r. auto.
Qed.
Lemma searches_code : forall name wanted, searches name wanted -> exists b selb, builtin_code name = Some b /\ (forall n k, selb k n = true <-> wanted n k) /\ forall R, call_builtin R b = search_documentation selb.
Proof.
  intros name wanted [(-> & ->)|(-> & ->)].
  - exists BDoc, (fun k n => prefixb n k). split; [vm_compute; reflexivity|]. split; [intros; apply starts_sel|reflexivity].
  - exists BSearchDoc, contains. split; [vm_compute; reflexivity|]. split; [intros; apply inside_sel|reflexivity].
Qed.
Lemma listing_start : forall sel vs ts, listing sel vs ts -> ts = [] \/ exists r, concat ts = "-"%char :: r.
Proof. intros sel vs ts H. induction H as [|n p vs ts N H IH|n i v f t vs ts N IF E H IH]; auto. right. destruct (entry_start f t E) as (r & ->). eexists. reflexivity. Qed.
Lemma listings_start : forall (wanted : str -> str -> Prop) vs ns tss, Forall2 (fun n ts => listing (wanted n) vs ts) ns tss -> concat (concat tss) <> NULL_STRING.
Proof.
  intros wanted vs ns tss H. assert (Q : concat (concat tss) = [] \/ exists r, concat (concat tss) = "-"%char :: r).
  { induction H as [|n ts ns tss L H IH]; [left; reflexivity|]. cbn [concat]. rewrite concat_app. destruct (listing_start _ _ _ L) as [-> |(r & ->)]; [exact IH|right; eexists; reflexivity]. }
  destruct Q as [-> |(r & ->)]; discriminate.
Qed.
Lemma doc_found : forall name wanted ps ns tss s sc st, searches name wanted -> ps <> [] -> Forall2 word_arg ps ns -> macros_are st s [] -> scope_at st s = Some sc ->
  Forall2 (fun n ts => listing (wanted n) (s_vars sc) ts) ns tss -> ~ In "{"%char (concat (concat tss)) -> builtin_pure name ps s st (fun r => is_str r (ended (concat (concat tss)))).
Proof.
  intros name wanted ps ns tss s sc st SE NE WA MA H L NB. destruct (searches_code name wanted SE) as (b & selb & C & HS & K).
  apply (pure_intro _ b) with (r := vstr (ended (concat (concat tss)))); [exact C| |apply vstr_is]. rewrite K. destruct ps as [|p ps]; [congruence|]. cbn [search_documentation].
  unfold bind. rewrite (items_found wanted selb (p :: ps) ns tss s st HS WA MA); [|intros sc' H'; assert (sc' = sc) by congruence; subst sc'; exact L].
  unfold dump_documentation. rewrite shown_alone; [reflexivity|exact NB|]. eapply listings_start; exact L.
Qed.
Lemma doc_crashes : forall name wanted p ps n ts s sc st k i o ms, searches name wanted -> word_arg p n -> macros_are st s ((k, P i o) :: ms) -> (forall u, o <> OScope u) -> scope_at st s = Some sc ->
  listing (wanted n) (s_vars sc) ts -> builtin_call name (p :: ps) s st (Undef UBNullDeref) st.
Proof.
  intros name wanted p ps n ts s sc st k i o ms SE W MA NO H L. destruct (searches_code name wanted SE) as (b & selb & C & HS & K).
  apply (builtin_calls 0 _ b); [exact C| |discriminate]. rewrite K. cbn [search_documentation]. unfold bind. rewrite (item_crashes wanted selb p ps n ts s st sc k i o ms HS W MA NO H L). reflexivity.
Qed.
Lemma doc_all : forall name wanted ts s sc gsc st, searches name wanted -> scope_at st s = Some sc -> scope_at st (s_global sc) = Some gsc -> overview entry_of (s_vars gsc) ts ->
  builtin_pure name [] s st (fun r => is_str r (concat (map ended ts))).
Proof.
  intros name wanted ts s sc gsc st SE H G OV. destruct (searches_code name wanted SE) as (b & selb & C & HS & K).
  apply (pure_intro _ b) with (r := vstr (concat (map ended ts))); [exact C| |apply vstr_is]. rewrite K. cbn [search_documentation].
  unfold bind, reads. rewrite (get_at _ _ _ H), (get_at _ _ _ G). unfold dump_documentation. rewrite (overview_found entry_of formated_doc _ ts st); [reflexivity| |exact OV].
  intros f t E. split; [apply entry_found; exact E|]. destruct (entry_start f t E) as (r & ->). discriminate.
Qed.
Lemma html_all : forall ps ts s sc gsc st, scope_at st s = Some sc -> scope_at st (s_global sc) = Some gsc -> overview html_of (s_vars gsc) ts ->
  builtin_pure $"htmldoc" ps s st (fun r => is_str r (html_page (concat (map ended ts)))).
Proof.
  intros ps ts s sc gsc st H G OV. apply (pure_intro _ BHtmlDoc) with (r := vstr (html_page (concat (map ended ts)))); [vm_compute; reflexivity| |apply vstr_is]. cbn [call_builtin].
  unfold b_htmldoc, bind, reads. rewrite (get_at _ _ _ H), (get_at _ _ _ G). unfold dump_documentation. rewrite (overview_found html_of html_doc _ ts st); [| |exact OV].
  - cbn [obind]. unfold html_page. cbn [map concat]. unfold ended. rewrite <- !app_assoc. reflexivity.
  - intros f t E. split; [apply html_found; exact E|]. destruct (html_start f t E) as (r & ->). discriminate.
Qed.

(** ** Every list of functions has a listing *)
Lemma entry_total : forall f, exists t, entry_of f t.
Proof. intros f. destruct (title_total (fn_sig f)) as (n & T). eexists. exists n. split; [exact T|reflexivity]. Qed.
Lemma html_total : forall f, exists t, html_of f t.
Proof.
  intros f. destruct (prefixb $"(" (fn_sig f)) eqn:E.
  - apply prefixb_spec in E. destruct (title_total (fn_sig f)) as (n & T). eexists. exists ($"<b>" ++ n ++ $"</b>"). split; [left; exists n; auto|reflexivity].
  - eexists. exists $"???". split; [right; split; [|reflexivity]|reflexivity]. intros r R. rewrite R in E. discriminate E.
Qed.
Lemma listing_exists : forall (sel : str -> Prop) vs, (forall k, sel k \/ ~ sel k) -> (forall n p, In (n, p) vs -> sel n -> exists i v f, p = P i (OVar v) /\ is_fn v f) -> exists ts, listing sel vs ts.
Proof.
  intros sel vs D. induction vs as [|[n p] vs IH]; intros H; [exists []; constructor|]. destruct IH as (ts & L); [intros; eapply H; [right; eassumption|assumption]|].
  destruct (D n) as [Y|N]; [|exists ts; constructor; assumption]. destruct (H n p (or_introl eq_refl) Y) as (i & v & f & -> & IF). destruct (entry_total f) as (t & E). exists (t :: ts). eapply lg_take; eassumption.
Qed.
Lemma wanted_decided : forall name wanted, searches name wanted -> forall n k, wanted n k \/ ~ wanted n k.
Proof. intros name wanted SE n k. destruct (searches_code name wanted SE) as (_ & selb & _ & HS & _). destruct (selb k n) eqn:E; [left; apply HS, E|right; intro W; apply HS in W; congruence]. Qed.
Lemma doc_listing : forall name wanted n vs, searches name wanted -> (forall k p, In (k, p) vs -> wanted n k -> exists i v f, p = P i (OVar v) /\ is_fn v f) -> exists ts, listing (wanted n) vs ts.
Proof. intros name wanted n vs SE H. apply listing_exists; [intro k; eapply wanted_decided; exact SE|exact H]. Qed.

(** ** A fresh interpreter *)
Lemma entry_is : forall f t, formated_doc f = Val t -> entry_of f t.
Proof. intros f t H. destruct (entry_total f) as (u & E). pose proof (entry_found f u E) as Q. assert (u = t) by congruence. subst u. exact E. Qed.
Lemma html_is : forall f t, html_doc f = Val t -> html_of f t.
Proof. intros f t H. destruct (html_total f) as (u & E). pose proof (html_found f u E) as Q. assert (u = t) by congruence. subst u. exact E. Qed.
Definition fn_of (p : ptr) : option fnval := match p with P _ (OVar v) => match v_ty v, v_val v with TFun, Some (OFun f) => Some f | _, _ => None end | _ => None end.
Lemma fn_of_ok : forall p f, fn_of p = Some f -> exists i v, p = P i (OVar v) /\ is_fn v f.
Proof.
  intros [|i o] f H; [discriminate|]. destruct o as [|?|?|?|?|?|?|?|?|?|? ? ?|v]; try discriminate. cbn [fn_of] in H. exists i, v. split; [reflexivity|]. unfold is_fn. destruct (v_ty v); try discriminate. split; [reflexivity|].
  destruct (v_val v) as [[|?|?|?|?|?|?|g|?|?|? ? ?|?]|]; try discriminate. congruence.
Qed.
Fixpoint listed (selb : str -> bool) (vs : list (str * ptr)) : option (list str) :=
  match vs with
  | [] => Some []
  | (n, p) :: vs' =>
    match listed selb vs' with
    | None => None
    | Some ts => if selb n then match fn_of p with Some f => match formated_doc f with Val t => Some (t :: ts) | _ => None end | None => None end else Some ts
    end
  end.
Lemma listed_ok : forall sel selb vs ts, (forall k, selb k = true <-> sel k) -> listed selb vs = Some ts -> listing sel vs ts.
Proof.
  intros sel selb vs ts HS. revert ts. induction vs as [|[n p] vs IH]; intros ts H; cbn [listed] in H; [injection H as <-; constructor|]. destruct (listed selb vs) as [us|]; [|discriminate]. destruct (selb n) eqn:Q.
  - destruct (fn_of p) as [f|] eqn:FO; [|discriminate]. destruct (formated_doc f) as [t| | | |] eqn:FD; try discriminate. injection H as <-. destruct (fn_of_ok _ _ FO) as (i & v & -> & IF).
    eapply lg_take; [apply HS, Q|exact IF|apply entry_is, FD|apply IH; reflexivity].
  - injection H as <-. apply lg_skip; [intro S; apply HS in S; congruence|apply IH; reflexivity].
Qed.
Fixpoint overviewed (fmt : fnval -> out str) (vs : list (str * ptr)) : option (list str) :=
  match vs with
  | [] => Some []
  | (n, p) :: vs' =>
    match overviewed fmt vs' with
    | None => None
    | Some ts =>
      if prefixb $"###" n then Some ts
      else match fn_of p with
           | Some f => if fn_bi f then match fmt f with Val t => if existsb (Ascii.eqb "{") t then None else Some (t :: ts) | _ => None end else Some ts
           | None => None
           end
    end
  end.
Lemma overviewed_ok : forall (entry : fnval -> str -> Prop) fmt vs ts, (forall f t, fmt f = Val t -> entry f t) -> overviewed fmt vs = Some ts -> overview entry vs ts.
Proof.
  intros entry fmt vs ts HE. revert ts. induction vs as [|[n p] vs IH]; intros ts H; cbn [overviewed] in H; [injection H as <-; constructor|]. destruct (overviewed fmt vs) as [us|]; [|discriminate]. destruct (prefixb $"###" n) eqn:Q.
  - injection H as <-. apply ov_internal; [apply prefixb_spec, Q|apply IH; reflexivity].
  - assert (N : ~ starts_with $"###" n) by (intro S; apply prefixb_spec in S; congruence). destruct (fn_of p) as [f|] eqn:FO; [|discriminate]. destruct (fn_of_ok _ _ FO) as (i & v & -> & IF). destruct (fn_bi f) eqn:B.
    + destruct (fmt f) as [t| | | |] eqn:FD; try discriminate. destruct (existsb (Ascii.eqb "{") t) eqn:EX; [discriminate|]. injection H as <-.
      eapply ov_builtin; [exact N|exact IF|exact B|apply HE, FD| |apply IH; reflexivity]. intro I. assert (X : existsb (Ascii.eqb "{") t = true) by (apply existsb_exists; exists "{"%char; split; [exact I|reflexivity]). congruence.
    + injection H as <-. eapply ov_own; [exact N|exact IF|exact B|apply IH; reflexivity].
Qed.
Definition is_some {A} (o : option A) : bool := match o with Some _ => true | None => false end.
Lemma all_plain : (match overviewed formated_doc (fst main_vars) with Some ts => Nat.eqb (length ts) 141 | None => false end) && is_some (overviewed html_doc (fst main_vars)) = true.
Proof. vm_compute. reflexivity. Qed.

Lemma fresh_main : forall inp files e, exists sc, scope_at (init_state inp files e) main_sid = Some sc /\ s_vars sc = fst main_vars /\ s_global sc = main_sid.
Proof. intros. eexists. split; [unfold scope_at; vm_compute; reflexivity|split; vm_compute; reflexivity]. Qed.
Lemma doc_fresh : forall inp files e name wanted, searches name wanted -> exists ts, overview entry_of (fst main_vars) ts /\ length ts = 141%nat /\
  builtin_pure name [] main_sid (init_state inp files e) (fun r => is_str r (concat (map ended ts))).
Proof.
  intros inp files e name wanted SE. destruct (fresh_main inp files e) as (sc & H & V & G). pose proof all_plain as Q. apply andb_prop in Q. destruct Q as (Q & _).
  destruct (overviewed formated_doc (fst main_vars)) as [ts|] eqn:O; [|discriminate]. exists ts. assert (OV : overview entry_of (fst main_vars) ts) by (eapply overviewed_ok; [apply entry_is|exact O]). split; [exact OV|]. split; [apply Nat.eqb_eq, Q|].
  eapply doc_all; [exact SE|exact H|rewrite G; exact H|]. rewrite V. exact OV.
Qed.
Lemma html_fresh : forall inp files e ps, exists ts, overview html_of (fst main_vars) ts /\ builtin_pure $"htmldoc" ps main_sid (init_state inp files e) (fun r => is_str r (html_page (concat (map ended ts)))).
Proof.
  intros inp files e ps. destruct (fresh_main inp files e) as (sc & H & V & G). pose proof all_plain as Q. apply andb_prop in Q. destruct Q as (_ & Q).
  destruct (overviewed html_doc (fst main_vars)) as [ts|] eqn:O; [|discriminate]. exists ts. assert (OV : overview html_of (fst main_vars) ts) by (eapply overviewed_ok; [apply html_is|exact O]). split; [exact OV|].
  eapply html_all; [exact H|rewrite G; exact H|]. rewrite V. exact OV.
Qed.
Definition print_entries : list str := match listed (prefixb $"print") (fst main_vars) with Some ts => ts | None => [] end.
Lemma print_listing : listing (starts_with $"print") (fst main_vars) print_entries /\ length print_entries = 2%nat /\ existsb (Ascii.eqb "{") (concat print_entries) = false.
Proof.
  assert (Q : (match listed (prefixb $"print") (fst main_vars) with Some ts => Nat.eqb (length ts) 2 && negb (existsb (Ascii.eqb "{") (concat ts)) | None => false end) = true) by (vm_compute; reflexivity).
  unfold print_entries. destruct (listed (prefixb $"print") (fst main_vars)) as [ts|] eqn:L; [|discriminate]. apply andb_prop in Q. destruct Q as (Q1 & Q2). split; [|split; [apply Nat.eqb_eq, Q1|apply negb_true_iff, Q2]].
  eapply listed_ok; [intro k; apply starts_sel|exact L].
Qed.
Lemma doc_case : let st := init_state [] [] (Env (fun _ => true) None []) in let p := P 1 (OVar (vstr $"print")) in
  exists sc, searches $"doc" starts_with /\ word_arg p $"print" /\ macros_are st main_sid [] /\ scope_at st main_sid = Some sc /\ Forall2 (fun n ts => listing (starts_with n) (s_vars sc) ts) [$"print"] [print_entries] /\
    ~ In "{"%char (concat (concat [print_entries])) /\ length print_entries = 2%nat.
Proof.
  cbv zeta. destruct (fresh_main [] [] (Env (fun _ => true) None [])) as (sc & H & V & G). destruct print_listing as (L & N & B). exists sc. split; [left; split; reflexivity|].
  split; [exists 1%positive, (vstr $"print"); split; [reflexivity|left; apply vstr_is]|]. split.
  { assert (Q : exists i m msc, var_at (init_state [] [] (Env (fun _ => true) None [])) main_sid $"###macros###" = Some (P i (OScope m)) /\ scope_at (init_state [] [] (Env (fun _ => true) None [])) m = Some msc /\ s_vars msc = [])
      by (eexists _, _, _; split; [vm_compute; reflexivity|split; [vm_compute; reflexivity|reflexivity]]).
    destruct Q as (i & m & msc & Q1 & Q2 & Q3). exists sc, i, m, msc. rewrite G. repeat (split; [try assumption|]); try assumption. exists sc. exact H. }
  split; [exact H|]. split; [constructor; [rewrite V; exact L|constructor]|]. split; [|exact N]. cbn [concat]. rewrite app_nil_r. intro I.
  assert (X : existsb (Ascii.eqb "{") (concat print_entries) = true) by (apply existsb_exists; exists "{"%char; split; [exact I|reflexivity]). congruence.
Qed.
(** ** Exceptions *)
Lemma doc_of_symbol : exists w st', runs false false $"(doc println)" [] (init_state [] [] (Env (fun _ => true) None [])) (Val (Some w)) st' /\ is_str w [c_nl].
Proof. eexists _, _. split; [apply (runs_by 60); [vm_compute; reflexivity|discriminate]|split; reflexivity]. Qed.
Lemma doc_in_function : exists w st', runs false false $"(defn f (x) (doc ""print"")) (f 1)" [] (init_state [] [] (Env (fun _ => true) None [])) (Val (Some w)) st' /\ is_str w [c_nl].
Proof. eexists _, _. split; [apply (runs_by 60); [vm_compute; reflexivity|discriminate]|split; reflexivity]. Qed.
Lemma doc_with_macro : exists st', runs false false $"(define-macro-eval m (x) (+ x 1)) (doc ""print"")" [] (init_state [] [] (Env (fun _ => true) None [])) (Undef UBNullDeref) st'.
Proof. eexists. apply (runs_by 60); [vm_compute; reflexivity|discriminate]. Qed.
Lemma doc_of_variable : exists i st', runs false false $"(def prix 3) (doc ""pri"")" [] (init_state [] [] (Env (fun _ => true) None [])) (Throw (ELisp $"Invalid cast for function, value=3 not found" i)) st'.
Proof. eexists _, _. apply (runs_by 60); [vm_compute; reflexivity|discriminate]. Qed.
