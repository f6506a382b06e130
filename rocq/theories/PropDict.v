(** Properties C18, C19, C20: dictionaries. *)
Require Import String Ascii List ZArith Bool Lia Sorted.
Require Import PArith FMapPositive.
From Verif Require Import Base CppString Num Token Value State Builtins Eval LispTop SpecLex SpecRun SpecVal SpecNum SpecList SpecDict
  ListProofs ErrProofs DictProofs.
Import ListNotations.

(** ** C18: a finite map, after any history of operations *)
Theorem C18_make : forall s st, heap_numbered st -> exists r l st', builtin_call $"make-dict" [] s st (Val (Some r)) st' /\
  v_ty r = TNative /\ v_val r = Some (ODict l) /\ dict_at st l = None /\ only_adds st st' /\ forall kd, dictionary kd l [] st'.
Proof. exact make_ok. Qed.
Print Assumptions C18_make.
Theorem C18_set : forall kd l h st p q i v k o s, dictionary kd l h st -> dict_arg_is p l -> key_arg kd q k -> value_arg (P i (OVar v)) o ->
  exists st', builtin_call $"dict-set" [p; q; P i (OVar v)] s st (Val (Some v)) st' /\ only_dict st st' l /\ dictionary kd l (DSet k o :: h) st'.
Proof. exact set_ok. Qed.
Print Assumptions C18_set.
Theorem C18_remove : forall kd l h st p q k s, dictionary kd l h st -> dict_arg_is p l -> key_arg kd q k ->
  exists r st', builtin_call $"dict-remove" [p; q] s st (Val (Some r)) st' /\ (exists b, is_bool r b /\ (b = true <-> content h k <> None)) /\
    only_dict st st' l /\ dictionary kd l (DRemove k :: h) st'.
Proof. exact remove_ok. Qed.
Print Assumptions C18_remove.
Theorem C18_clear : forall kd l h st p s, dictionary kd l h st -> dict_arg_is p l ->
  exists r st', builtin_call $"dict-clear" [p] s st (Val (Some r)) st' /\ only_dict st st' l /\ dictionary kd l (DClear :: h) st'.
Proof. exact clear_ok. Qed.
Print Assumptions C18_clear.
Theorem C18_get : forall kd l h st p q k s, dictionary kd l h st -> dict_arg_is p l -> key_arg kd q k ->
  builtin_pure $"dict-get" [p; q] s st (fun r => match content h k with Some o => v_val r = Some o | None => v_ty r = TUndef end).
Proof. exact get_ok. Qed.
Print Assumptions C18_get.
Theorem C18_contains_key : forall kd l h st p q k s, dictionary kd l h st -> dict_arg_is p l -> key_arg kd q k ->
  builtin_pure $"dict-contains-key" [p; q] s st (fun r => exists b, is_bool r b /\ (b = true <-> content h k <> None)).
Proof. exact haskey_ok. Qed.
Print Assumptions C18_contains_key.
Theorem C18_length : forall kd l h st p ks s, dictionary kd l h st -> dict_arg_is p l -> keys_are h ks -> (Z.of_nat (length ks) <= 2147483647)%Z ->
  builtin_pure $"len" [p] s st (fun r => is_int r (Z.of_nat (length ks))).
Proof. exact dlen_ok. Qed.
Print Assumptions C18_length.
Theorem C18_keys : forall kd l h st p ks s, dictionary kd l h st -> dict_arg_is p l -> keys_are h ks -> heap_numbered st ->
  exists es, builtin_list $"dict-keys" [p] s st es /\ Forall2 (fun e k => exists v, element e v /\ key_of kd v k) es ks.
Proof. exact keys_ok. Qed.
Print Assumptions C18_keys.
Theorem C18_keys_known : forall kd l h st, dictionary kd l h st -> exists ks, keys_are h ks.
Proof. exact keys_known. Qed.
Print Assumptions C18_keys_known.
Theorem C18_keys_unique : forall h ks ks', keys_are h ks -> keys_are h ks' -> ks = ks'.
Proof. exact keys_unique. Qed.
Print Assumptions C18_keys_unique.
Theorem C18_contains_value : forall kd l h st p i v o s, dictionary kd l h st -> dict_arg_is p l -> v_val v = Some o ->
  (exists z, o = OInt z) \/ (exists b, o = OBool b) \/ (exists t, o = OString t) ->
  builtin_pure $"dict-contains-value" [p; P i (OVar v)] s st (fun r => exists b, is_bool r b /\ (b = true <-> exists k, content h k = Some o)).
Proof. exact hasvalue_ok. Qed.
Print Assumptions C18_contains_value.
(** A history that sets two keys, sets one again and removes the other. *)
Example C18_ex : exists l st, dictionary Ints l [DRemove (KInt 5); DSet (KInt 3) (OInt 8); DSet (KInt 5) (OInt 2); DSet (KInt 3) (OInt 1)] st /\
  keys_are [DRemove (KInt 5); DSet (KInt 3) (OInt 8); DSet (KInt 5) (OInt 2); DSet (KInt 3) (OInt 1)] [KInt 3].
Proof.
  assert (HN : heap_numbered fresh) by (split; intros l x E; unfold vec_at, dict_at in E; vm_compute in E; destruct l; discriminate).
  destruct (make_ok main_sid fresh HN) as (r & l & st & C & T & V & _ & _ & D). specialize (D Ints).
  assert (A : dict_arg_is (P 1 (OVar r)) l) by (exists 1%positive, r; auto).
  assert (K : forall z, key_arg Ints (P 2 (OVar (vint z))) (KInt z)) by (intro z; exists 2%positive, (vint z); repeat split).
  assert (W : forall z, value_arg (P 3 (OVar (vint z))) (OInt z)) by (intro z; exists 3%positive, (vint z); repeat split; discriminate).
  destruct (set_ok _ _ _ _ _ _ _ _ _ _ main_sid D A (K 3%Z) (W 1%Z)) as (st1 & _ & _ & D1).
  destruct (set_ok _ _ _ _ _ _ _ _ _ _ main_sid D1 A (K 5%Z) (W 2%Z)) as (st2 & _ & _ & D2).
  destruct (set_ok _ _ _ _ _ _ _ _ _ _ main_sid D2 A (K 3%Z) (W 8%Z)) as (st3 & _ & _ & D3).
  destruct (remove_ok _ _ _ _ _ _ _ main_sid D3 A (K 5%Z)) as (rr & st4 & _ & _ & _ & D4).
  exists l, st4. split; [exact D4|]. split; [repeat constructor|]. intro k. cbn.
  destruct (key_dec k (KInt 5)) as [->|N5]; [intuition discriminate|]. destruct (key_dec k (KInt 3)) as [->|N3]; [intuition discriminate|].
  split; [intros [<-|[]]; congruence|]. intro H. destruct H. reflexivity.
Qed.

(** ** C19: keys of different kinds *)
Theorem C19_text_is_number : forall l z o st p i w s, dictionary Ints l [DSet (KInt z) o] st -> dict_arg_is p l ->
  (-2147483648 <= z <= 2147483647)%Z -> is_str w (z_to_string z) ->
  builtin_pure $"dict-contains-key" [p; P i (OVar w)] s st (fun r => is_bool r true).
Proof. exact text_is_number. Qed.
Print Assumptions C19_text_is_number.
Theorem C19_order_refuted : forall s st, builtin_pure $"<" [P 1 (OVar (vint 9)); P 2 (OVar (vstr $"10"))] s st (fun r => is_bool r true) /\
  builtin_pure $"<" [P 1 (OVar (vstr $"10")); P 2 (OVar (vstr $"9"))] s st (fun r => is_bool r true) /\
  builtin_pure $"<" [P 1 (OVar (vint 9)); P 2 (OVar (vstr $"9"))] s st (fun r => is_bool r false).
Proof. exact mixed_order. Qed.
Print Assumptions C19_order_refuted.
Theorem C19_mixed_keys_undefined : exists st, runs false false $"(def d (make-dict)) (dict-set d ""10"" 1) (dict-set d ""9"" 2) (dict-set d 9 3)" [] fresh (Undef UBComparator) st.
Proof. exact mixed_undefined. Qed.
Print Assumptions C19_mixed_keys_undefined.
Theorem C19_wrong_key_found : exists st r, runs false false $"(def d (make-dict)) (dict-set d 0 1) (dict-contains-key d ""abc"")" [] fresh (Val (Some r)) st /\ is_bool r true.
Proof. exact mixed_same. Qed.
Print Assumptions C19_wrong_key_found.
Example C19_ex : exists l st, dictionary Ints l [DSet (KInt 7) (OInt 1)] st.
Proof.
  assert (HN : heap_numbered fresh) by (split; intros l x E; unfold vec_at, dict_at in E; vm_compute in E; destruct l; discriminate).
  destruct (make_ok main_sid fresh HN) as (r & l & st & C & T & V & _ & _ & D). specialize (D Ints).
  destruct (set_ok Ints l [] st (P 1 (OVar r)) (P 2 (OVar (vint 7))) 3%positive (vint 1) (KInt 7) (OInt 1) main_sid D) as (st1 & _ & _ & D1).
  - exists 1%positive, r; auto. - exists 2%positive, (vint 7); repeat split. - exists 3%positive, (vint 1); repeat split; discriminate.
  - eauto.
Qed.

(** ** C20: values stored and read back *)
Theorem C20_kept : forall kd l h st p q i v k s s', dictionary kd l h st -> dict_arg_is p l -> key_arg kd q k ->
  (exists z, is_int v z) \/ (exists b, is_bool v b) \/ (exists d, is_dbl v d) \/ (exists t, is_str v t) \/ (exists f, is_fn v f) \/
    (exists m, v_ty v = TList /\ v_val v = Some (OList m)) ->
  exists st', builtin_call $"dict-set" [p; q; P i (OVar v)] s st (Val (Some v)) st' /\
    builtin_pure $"dict-get" [p; q] s' st' (fun r => v_ty r = v_ty v /\ v_val r = v_val v).
Proof. exact kept_ok. Qed.
Print Assumptions C20_kept.
Theorem C20_symbol_becomes_string : forall kd l h st p q i v k t s s', dictionary kd l h st -> dict_arg_is p l -> key_arg kd q k -> is_sym v t ->
  exists st', builtin_call $"dict-set" [p; q; P i (OVar v)] s st (Val (Some v)) st' /\ builtin_pure $"dict-get" [p; q] s' st' (fun r => is_str r t).
Proof. exact symbol_to_string. Qed.
Print Assumptions C20_symbol_becomes_string.
Theorem C20_nil_becomes_zero : forall kd l h st p q i t k w s s', dictionary kd l h st -> dict_arg_is p l -> key_arg kd q k ->
  word_means w (TkNil, tk_val t) -> tk_type t = TkNil ->
  exists st', builtin_call $"dict-set" [p; q; P i (OVar (var_of_token t))] s st (Val (Some (var_of_token t))) st' /\ v_ty (var_of_token t) = TNil /\
    builtin_pure $"dict-get" [p; q] s' st' (fun r => is_int r 0).
Proof. exact nil_to_zero. Qed.
Print Assumptions C20_nil_becomes_zero.
Theorem C20_dictionary_loses_type : forall kd l h st p q i v k m s s', dictionary kd l h st -> dict_arg_is p l -> key_arg kd q k ->
  v_ty v = TNative -> v_val v = Some (ODict m) ->
  exists st', builtin_call $"dict-set" [p; q; P i (OVar v)] s st (Val (Some v)) st' /\
    builtin_pure $"dict-get" [p; q] s' st' (fun r => v_ty r = TUndef /\ v_val r = Some (ODict m)).
Proof. exact dict_loses_type. Qed.
Print Assumptions C20_dictionary_loses_type.
Theorem C20_empty_undefined : forall kd l h st p q i v k s s', dictionary kd l h st -> dict_arg_is p l -> key_arg kd q k -> v_val v = None ->
  exists st', builtin_call $"dict-set" [p; q; P i (OVar v)] s st (Val (Some v)) st' /\ builtin_call $"dict-get" [p; q] s' st' (Undef UBNullDeref) st'.
Proof. exact empty_undefined. Qed.
Print Assumptions C20_empty_undefined.
Example C20_ex : exists l st, dictionary Texts l [] st /\ is_str (vstr $"v") $"v" /\ is_sym (mkv TSym (OString $"v")) $"v" /\
  word_means $"nil" (TkNil, TvInt 0) /\ v_val vnil = None.
Proof.
  assert (HN : heap_numbered fresh) by (split; intros l x E; unfold vec_at, dict_at in E; vm_compute in E; destruct l; discriminate).
  destruct (make_ok main_sid fresh HN) as (r & l & st & C & T & V & _ & _ & D).
  exists l, st. split; [apply D|]. split; [split; reflexivity|]. split; [split; reflexivity|]. split; [constructor; reflexivity|reflexivity].
Qed.
