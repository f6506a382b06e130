(** Calls of builtin functions. *)
Require Import String Ascii List ZArith Bool Lia.
Require Import PArith FMapPositive.
From Verif Require Import Base CppString Num Token Value State Show ScopeOps Builtins Table Eval LispTop SpecRun SpecVal.
Import ListNotations.

(** The last entry for a name counts. *)
Fixpoint table_code (name : str) (es : list entry) : option builtin :=
  match es with
  | [] => None
  | (n, b, _, _, _, _, _) :: es' => match table_code name es' with Some c => Some c | None => if str_eqb name n then Some b else None end
  end.
Definition builtin_code (name : str) : option builtin := table_code name builtin_table.
Lemma cmp_eq_same : forall a b, str_cmp a b = Eq -> a = b.
Proof.
  induction a as [|x a IH]; intros [|y b] H; try discriminate; [reflexivity|]. cbn [str_cmp] in H. destruct (Nat.compare (nat_of_ascii x) (nat_of_ascii y)) eqn:E; try discriminate.
  apply Nat.compare_eq in E. f_equal; [|apply IH; exact H]. rewrite <- (ascii_nat_embedding x), <- (ascii_nat_embedding y), E. reflexivity.
Qed.
Lemma cmp_same_eq : forall a, str_cmp a a = Eq.
Proof. induction a as [|x a IH]; [reflexivity|]. cbn [str_cmp]. rewrite Nat.compare_refl. exact IH. Qed.
Lemma set_here : forall k p vs, vars_find k (vars_set k p vs) = Some p.
Proof.
  induction vs as [|[k' p'] vs IH]; cbn [vars_set vars_find]; [rewrite str_eqb_refl; reflexivity|]. destruct (str_cmp k k') eqn:E; cbn [vars_find].
  - rewrite str_eqb_refl. reflexivity.
  - rewrite str_eqb_refl. reflexivity.
  - destruct (str_eqb k k') eqn:Q; [|exact IH]. apply str_eqb_eq in Q. subst k'. rewrite cmp_same_eq in E. discriminate.
Qed.
Lemma set_there : forall k n p vs, str_eqb n k = false -> vars_find n (vars_set k p vs) = vars_find n vs.
Proof.
  intros k n p vs N. induction vs as [|[k' p'] vs IH]; cbn [vars_set vars_find]; [rewrite N; reflexivity|]. destruct (str_cmp k k') eqn:E; cbn [vars_find].
  - apply cmp_eq_same in E. subst k'. rewrite N. reflexivity.
  - rewrite N. reflexivity.
  - rewrite IH. reflexivity.
Qed.
Definition found_code (name : str) (vs : list (str * ptr)) (b : builtin) : Prop :=
  exists i v f, vars_find name vs = Some (P i (OVar v)) /\ v_val v = Some (OFun f) /\ fn_code f = CBuiltin b.
Lemma table_found : forall name es id vs b, table_code name es = Some b \/ (table_code name es = None /\ found_code name vs b) -> found_code name (fst (table_vars es id vs)) b.
Proof.
  intros name. induction es as [|[[[[[[n c] sig] doc] bi] sp] ex] es IH]; intros id vs b H; cbn [table_vars table_code] in *; [destruct H as [H|[_ H]]; [discriminate|exact H]|].
  apply IH. destruct (table_code name es) as [d|]; [left; destruct H as [H|[H _]]; [exact H|discriminate]|]. right. split; [reflexivity|].
  destruct (str_eqb name n) eqn:Q.
  - destruct H as [H|[H _]]; [|discriminate]. injection H as ->. apply str_eqb_eq in Q. subst n.
    exists id, (create_function b sig doc bi sp ex), (MkFn (CBuiltin b) sig doc bi sp ex $"<builtin>"). split; [apply set_here|split; reflexivity].
  - destruct H as [H|[_ (i & v & f & V & W & C)]]; [discriminate|]. exists i, v, f. rewrite set_there by exact Q. auto.
Qed.
Lemma builtin_code_found : forall name b, builtin_code name = Some b -> exists f, builtin_fn name = Some f /\ fn_code f = CBuiltin b.
Proof.
  intros name b H. destruct (table_found name builtin_table 5 meta_vars b (or_introl H)) as (i & v & f & V & W & C). exists f. split; [|exact C]. unfold builtin_fn, main_vars. rewrite V, W. reflexivity.
Qed.
Lemma builtin_calls : forall n name b args s st o st', builtin_code name = Some b ->
  call_builtin (run n) b args s st = (o, st') -> o <> NoFuel -> builtin_call name args s st o st'.
Proof.
  intros n name b args s st o st' C H N. destruct (builtin_code_found _ _ C) as (f & F & FC). exists f. split; [exact F|]. exists (S n). split; [|exact N].
  cbn [run step r_call]. unfold call. rewrite FC. exact H.
Qed.
Lemma builtin_code_call : forall name b args s st o st', builtin_code name = Some b -> builtin_call name args s st o st' ->
  exists n, call_builtin (run n) b args s st = (o, st') /\ o <> NoFuel.
Proof.
  intros name b args s st o st' C (f & F & n & H & N). destruct (builtin_code_found _ _ C) as (f' & F' & FC). rewrite F in F'. injection F' as <-.
  destruct n as [|n]; [cbn in H; unfold no_fuel, lift in H; congruence|]. exists n. split; [|exact N]. cbn [run step r_call] in H. unfold call in H.
  rewrite FC in H. exact H.
Qed.

(** ** Values read by the functions *)
Lemma is_ty_of : forall v t u, v_ty v = t -> is_ty u v = ltype_eqb t u.
Proof. intros v t u <-. reflexivity. Qed.
Lemma is_list_of : forall v t, v_ty v = t -> is_list v = (ltype_eqb t TList || ltype_eqb t TNil).
Proof. intros v t <-. reflexivity. Qed.
Lemma show_str : forall n v t st, is_str v t -> show (S (S n)) st (ShVar v) = Val t.
Proof. intros n v t st [H1 H2]. cbn [show]. rewrite H1, H2. reflexivity. Qed.
Lemma show_sym : forall n v t st, is_sym v t -> show (S (S n)) st (ShVar v) = Val t.
Proof. intros n v t st [H1 H2]. cbn [show]. rewrite H1, H2. reflexivity. Qed.
Lemma show_int : forall n v z st, is_int v z -> show (S (S n)) st (ShVar v) = Val (z_to_string z).
Proof. intros n v z st [H1 H2]. cbn [show]. rewrite H1, H2. reflexivity. Qed.
Lemma var_str_str : forall v t st, is_str v t -> var_str v st = Val t.
Proof. intros v t st H. unfold var_str, show_fuel. cbn [Nat.add]. apply show_str, H. Qed.
Lemma var_str_sym : forall v t st, is_sym v t -> var_str v st = Val t.
Proof. intros v t st H. unfold var_str, show_fuel. cbn [Nat.add]. apply show_sym, H. Qed.
Lemma var_str_int : forall v z st, is_int v z -> var_str v st = Val (z_to_string z).
Proof. intros v t st H. unfold var_str, show_fuel. cbn [Nat.add]. apply show_int, H. Qed.
Lemma string_value_str : forall v t st, is_str v t -> string_value v st = Val t.
Proof. intros v t st [H1 H2]. unfold string_value. rewrite H2. reflexivity. Qed.
Lemma ptr_str_var : forall i v st, ptr_str (P i (OVar v)) st = show (5 + 5 * Pos.to_nat (st_nloc st)) st (ShVar v).
Proof. reflexivity. Qed.
Lemma ptr_str_str : forall i v t st, is_str v t -> ptr_str (P i (OVar v)) st = Val t.
Proof. intros i v t st H. rewrite ptr_str_var. cbn [Nat.add]. apply show_str, H. Qed.
Lemma ptr_str_sym : forall i v t st, is_sym v t -> ptr_str (P i (OVar v)) st = Val t.
Proof. intros i v t st H. rewrite ptr_str_var. cbn [Nat.add]. apply show_sym, H. Qed.
Lemma ptr_str_int : forall i v z st, is_int v z -> ptr_str (P i (OVar v)) st = Val (z_to_string z).
Proof. intros i v t st H. rewrite ptr_str_var. cbn [Nat.add]. apply show_int, H. Qed.
Lemma int_value_int : forall v z st, is_int v z -> int_value v st = Val z.
Proof. intros v z st [H1 H2]. unfold int_value. rewrite (is_ty_of v _ _ H1), H2. reflexivity. Qed.
Lemma to_int_int : forall v z st, is_int v z -> to_int v st = Val z.
Proof.
  intros v z st [H1 H2]. unfold to_int. rewrite !(is_ty_of v _ _ H1). cbn. apply int_value_int. split; assumption.
Qed.
Lemma bool_value_bool : forall v b st, is_bool v b -> bool_value v st = Val b.
Proof. intros v z st [H1 H2]. unfold bool_value. rewrite (is_ty_of v _ _ H1), H2. reflexivity. Qed.
Lemma list_value_list : forall st v l es, is_list_at st v l es -> list_value v st = Val es.
Proof. intros st v l es (H1 & H2 & H3). unfold list_value. rewrite H1, H2. unfold get_vec. unfold vec_at in H3. rewrite H3. reflexivity. Qed.
Lemma to_double_dbl : forall v d st, is_dbl v d -> to_double v st = Val d.
Proof.
  intros v d st [H1 H2]. unfold to_double, double_value. rewrite !(is_ty_of v _ _ H1). cbn. rewrite H2. reflexivity.
Qed.
Lemma to_double_int : forall v z st, is_int v z -> to_double v st = Val (f_of_z z).
Proof.
  intros v d st [H1 H2]. unfold to_double. rewrite !(is_ty_of v _ _ H1). cbn. rewrite (int_value_int v d) by (split; assumption). reflexivity.
Qed.
Lemma vstr_is : forall t, is_str (vstr t) t. Proof. split; reflexivity. Qed.
Lemma vint_is : forall z, is_int (vint z) z. Proof. split; reflexivity. Qed.
Lemma vbool_is : forall b, is_bool (vbool b) b. Proof. split; reflexivity. Qed.

Lemma pure_intro : forall name b args s st r (Q : variant -> Prop), builtin_code name = Some b ->
  call_builtin (run 0) b args s st = (Val (Some r), st) -> Q r -> builtin_pure name args s st Q.
Proof. intros name b args s st r Q C H K. exists r. split; [|exact K]. eapply builtin_calls; eauto. discriminate. Qed.
(** Two calls of the same function in the same state agree. *)
Lemma bind_val : forall A B (m : M A) (f : A -> M B) st a st', m st = (Val a, st') -> bind m f st = f a st'.
Proof. intros A B m f st a st' H. unfold bind. rewrite H. reflexivity. Qed.
