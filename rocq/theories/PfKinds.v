(** Element types without conj and real: Hermitian algorithms act as the symmetric ones. *)
From Coq Require Import List Arith ZArith Lia Bool.
From Verif Require Import Mem Scalar View Spec Idx Kinds SpecKinds Wp Loops Sums Norm Blas1 Blas2 Blas3 PfBlas1 PfBlas2 PfTrmv PfTrsv PfRank PfBlas3 PfTrsm.
Import ListNotations.
Set Implicit Arguments.
Local Open Scope sc_scope.

Section Agree.
Context {O : ops}.
Lemma ex_dec : forall (P : nat -> Prop) n, (forall i, {P i} + {~ P i}) -> {exists i, i < n /\ P i} + {~ exists i, i < n /\ P i}.
Proof.
  intros P n D. induction n as [|n [IH|IH]]; [right; intros (i & Hi & _); lia| |].
  - left. destruct IH as (i & Hi & H). exists i. split; auto.
  - destruct (D n) as [H|H]; [left; exists n; auto|]. right. intros (i & Hi & K).
    destruct (Nat.eq_dec i n) as [->|]; auto. apply IH. exists i. split; auto. lia.
Qed.
Lemma vcells_dec : forall (y : vec O) c, {vcells y c} + {~ vcells y c}.
Proof.
  intros y c. destruct (@ex_dec (fun i => c = vaddr y i) (vext y) (fun i => Nat.eq_dec c (vaddr y i))) as [H|H]; [left|right];
    exact H.
Qed.
Lemma mcells_dec : forall (A : mat O) (P : nat -> nat -> Prop) (D : forall i j, {P i j} + {~ P i j}) c, {mcells_on A P c} + {~ mcells_on A P c}.
Proof.
  intros A P D c.
  destruct (@ex_dec (fun i => exists j, j < ext1 A /\ (P i j /\ c = maddr A i j)) (ext0 A)) as [H|H].
  - intros i. apply ex_dec. intros j. destruct (D i j); [|right; tauto]. destruct (Nat.eq_dec c (maddr A i j)); [left|right]; tauto.
  - left. destruct H as (i & Hi & j & Hj & H). exists i, j. tauto.
  - right. intros (i & j & Hi & Hj & H1 & H2). apply H. exists i. split; auto. exists j. tauto.
Qed.
Lemma in_tri_dec : forall t i j, {in_tri t i j} + {~ in_tri t i j}.
Proof. intros t i j. destruct t; simpl; apply le_dec. Qed.

Lemma agree_v : forall (p q : prog O unit) m y r r', vwritable y ->
  succeeds p m (fun _ m' => vec_holds m' y r /\ changes_only m m' (vcells y)) ->
  succeeds q m (fun _ m' => vec_holds m' y r' /\ changes_only m m' (vcells y)) ->
  (forall i, i < vext y -> r i = r' i) -> same_result p q m.
Proof.
  intros p q m y r r' [Hacc _] ([] & m1 & R1 & H1 & C1) ([] & m2 & R2 & H2 & C2) E.
  exists m1, m2. split; auto. split; auto. intros c. destruct (vcells_dec y c) as [(i & Hi & ->)|N]; [|rewrite C1, C2; auto].
  destruct (H1 i Hi) as (v & V & Ev). destruct (H2 i Hi) as (w & W & Ew). rewrite Hacc in Ev, Ew. simpl in Ev, Ew.
  rewrite V, W. rewrite Ev, Ew, E; auto.
Qed.
Lemma agree_m : forall (p q : prog O unit) m C (P : nat -> nat -> Prop) r r', (forall i j, {P i j} + {~ P i j}) -> mwritable_on C P ->
  succeeds p m (fun _ m' => mat_holds_on m' C P r /\ changes_only m m' (mcells_on C P)) ->
  succeeds q m (fun _ m' => mat_holds_on m' C P r' /\ changes_only m m' (mcells_on C P)) ->
  (forall i j, i < ext0 C -> j < ext1 C -> P i j -> r i j = r' i j) -> same_result p q m.
Proof.
  intros p q m C P r r' D [Hacc _] ([] & m1 & R1 & H1 & C1) ([] & m2 & R2 & H2 & C2) E.
  exists m1, m2. split; auto. split; auto. intros c. destruct (mcells_dec C P D c) as [(i & j & Hi & Hj & Ht & ->)|N]; [|rewrite C1, C2; auto].
  destruct (H1 i j Hi Hj Ht) as (v & V & Ev). destruct (H2 i j Hi Hj Ht) as (w & W & Ew). rewrite Hacc in Ev, Ew. simpl in Ev, Ew.
  rewrite V, W. rewrite Ev, Ew, E; auto.
Qed.

Variables (Hc : forall v : O, conj v = v) (Hr : forall v : O, re v = v).
Lemma herm_sym : forall t (a : nat -> nat -> O) i j, herm_of t a i j = sym_of t a i j.
Proof.
  intros. unfold herm_of, sym_of, in_tri_b. rewrite Hr, Hc. destruct (Nat.eqb_spec i j) as [->|]; auto. destruct t; rewrite Nat.leb_refl; auto.
Qed.
Lemma herm_raw_sym : forall t (a : nat -> nat -> O) i j, herm_raw t a i j = sym_of t a i j.
Proof. intros. unfold herm_raw, sym_of. rewrite Hc. auto. Qed.
Lemma herm_in : forall t (a : nat -> nat -> O) i j, in_tri t i j -> herm_of t a i j = a i j.
Proof. intros t a i j H. rewrite herm_sym. unfold sym_of. destruct t; simpl in *; rewrite (proj2 (Nat.leb_le _ _)); auto. Qed.
Lemma read_conj : forall c (v : O), acc_read (AConj c) v = acc_read c v.
Proof. intros. simpl. apply Hc. Qed.
Ltac ksum := cbv beta; rewrite ?herm_in, ?Hc by assumption;
  first [reflexivity | unfold bigsum; apply sum_from_ext; intros; rewrite ?Hc, ?herm_sym, ?herm_raw_sym; reflexivity].
Lemma hemv_kind : forall (m : mem O) A t x y a f,
  ext0 A = ext1 A -> vext x = ext1 A -> vext y = ext0 A ->
  mat_holds_on m A (in_tri t) a -> vec_holds m x f -> vwritable y -> allocated m (vcells y) ->
  disjoint (mcells_on A (in_tri t)) (vcells y) -> disjoint (vcells x) (vcells y) ->
  same_result (hermitian_matrix_vector_product A t x y) (symmetric_matrix_vector_product A t x y) m.
Proof.
  intros. eapply agree_v with (y := y); [eassumption|eapply hemv_ok; eassumption|eapply symv_ok; eassumption|]. intros; ksum.
Qed.
Lemma hemv_upd_kind : forall (m : mem O) A t x y z a f g,
  ext0 A = ext1 A -> vext x = ext1 A -> vext y = ext0 A -> vext z = ext0 A ->
  mat_holds_on m A (in_tri t) a -> vec_holds m x f -> vec_holds m y g -> vwritable z -> allocated m (vcells z) ->
  disjoint (mcells_on A (in_tri t)) (vcells z) -> disjoint (vcells x) (vcells z) -> disjoint_or_aligned_v y z ->
  same_result (hermitian_matrix_vector_product_upd A t x y z) (symmetric_matrix_vector_product_upd A t x y z) m.
Proof.
  intros. eapply agree_v with (y := z); [eassumption|eapply hemv_upd_ok; eassumption|eapply symv_upd_ok; eassumption|]. intros; ksum.
Qed.
Lemma hemm_left_kind : forall (m : mem O) A t B C a b,
  ext0 A = ext1 A -> ext0 C = ext0 A -> ext1 A = ext0 B -> ext1 C = ext1 B ->
  mat_holds_on m A (in_tri t) a -> mat_holds m B b -> mwritable C -> allocated m (mcells C) ->
  disjoint (mcells_on A (in_tri t)) (mcells C) -> disjoint (mcells B) (mcells C) ->
  same_result (hermitian_matrix_product_left A t B C) (symmetric_matrix_product_left A t B C) m.
Proof.
  intros. eapply agree_m with (C := C) (P := all2); [intros; left; exact I|eassumption|eapply hemm_left_ok; eassumption|eapply symm_left_ok; eassumption|]. intros; ksum.
Qed.
Lemma hemm_right_kind : forall (m : mem O) B A t C a b,
  ext0 A = ext1 A -> ext0 C = ext0 B -> ext1 B = ext0 A -> ext1 C = ext1 A ->
  mat_holds_on m A (in_tri t) a -> mat_holds m B b -> mwritable C -> allocated m (mcells C) ->
  disjoint (mcells_on A (in_tri t)) (mcells C) -> disjoint (mcells B) (mcells C) ->
  same_result (hermitian_matrix_product_right B A t C) (symmetric_matrix_product_right B A t C) m.
Proof.
  intros. eapply agree_m with (C := C) (P := all2); [intros; left; exact I|eassumption|eapply hemm_right_ok; eassumption|eapply symm_right_ok; eassumption|]. intros; ksum.
Qed.
Lemma her_kind : forall (m : mem O) x A t a f,
  ext0 A = ext1 A -> vext x = ext0 A ->
  mat_holds_on m A (in_tri t) a -> vec_holds m x f -> mwritable_on A (in_tri t) ->
  disjoint (vcells x) (mcells_on A (in_tri t)) ->
  same_result (hermitian_matrix_rank_1_update x A t) (symmetric_matrix_rank_1_update x A t) m.
Proof.
  intros. eapply agree_m with (C := A) (P := in_tri t); [apply in_tri_dec|eassumption|eapply her_ok; eassumption|eapply syr_ok; eassumption|]. intros; ksum.
Qed.
Lemma her_alpha_kind : forall (m : mem O) alpha x A t a f,
  ext0 A = ext1 A -> vext x = ext0 A ->
  mat_holds_on m A (in_tri t) a -> vec_holds m x f -> mwritable_on A (in_tri t) ->
  disjoint (vcells x) (mcells_on A (in_tri t)) ->
  same_result (hermitian_matrix_rank_1_update_alpha alpha x A t) (symmetric_matrix_rank_1_update_alpha alpha x A t) m.
Proof.
  intros. eapply agree_m with (C := A) (P := in_tri t); [apply in_tri_dec|eassumption|eapply her_alpha_ok; eassumption|eapply syr_alpha_ok; eassumption|]. intros; ksum.
Qed.
Lemma her2_kind : forall (m : mem O) x y A t a f g,
  ext0 A = ext1 A -> vext x = ext0 A -> vext y = ext0 A ->
  mat_holds_on m A (in_tri t) a -> vec_holds m x f -> vec_holds m y g -> mwritable_on A (in_tri t) ->
  disjoint (vcells x) (mcells_on A (in_tri t)) -> disjoint (vcells y) (mcells_on A (in_tri t)) ->
  same_result (hermitian_matrix_rank_2_update x y A t) (symmetric_matrix_rank_2_update x y A t) m.
Proof.
  intros. eapply agree_m with (C := A) (P := in_tri t); [apply in_tri_dec|eassumption|eapply her2_ok; eassumption|eapply syr2_ok; eassumption|]. intros; ksum.
Qed.
Lemma herk_kind : forall (m : mem O) A C t a c,
  ext0 C = ext1 C -> ext0 A = ext0 C ->
  mat_holds m A a -> mat_holds_on m C (in_tri t) c -> mwritable_on C (in_tri t) ->
  disjoint (mcells A) (mcells_on C (in_tri t)) ->
  same_result (hermitian_matrix_rank_k_update A C t) (symmetric_matrix_rank_k_update A C t) m.
Proof.
  intros. eapply agree_m with (C := C) (P := in_tri t); [apply in_tri_dec|eassumption|eapply herk_ok; eassumption|eapply syrk_ok; eassumption|]. intros; ksum.
Qed.
Lemma herk_alpha_kind : forall (m : mem O) alpha A C t a c,
  ext0 C = ext1 C -> ext0 A = ext0 C ->
  mat_holds m A a -> mat_holds_on m C (in_tri t) c -> mwritable_on C (in_tri t) ->
  disjoint (mcells A) (mcells_on C (in_tri t)) ->
  same_result (hermitian_matrix_rank_k_update_alpha alpha A C t) (symmetric_matrix_rank_k_update_alpha alpha A C t) m.
Proof.
  intros. eapply agree_m with (C := C) (P := in_tri t); [apply in_tri_dec|eassumption|eapply herk_alpha_ok; eassumption|eapply syrk_alpha_ok; eassumption|]. intros; ksum.
Qed.
Lemma her2k_kind : forall (m : mem O) A B C t a b c,
  ext0 C = ext1 C -> ext0 A = ext0 C -> ext0 B = ext0 C -> ext1 B = ext1 A ->
  mat_holds m A a -> mat_holds m B b -> mat_holds_on m C (in_tri t) c -> mwritable_on C (in_tri t) ->
  disjoint (mcells A) (mcells_on C (in_tri t)) -> disjoint (mcells B) (mcells_on C (in_tri t)) ->
  same_result (hermitian_matrix_rank_2k_update A B C t) (symmetric_matrix_rank_2k_update A B C t) m.
Proof.
  intros. eapply agree_m with (C := C) (P := in_tri t); [apply in_tri_dec|eassumption|eapply her2k_ok; eassumption|eapply syr2k_ok; eassumption|]. intros; ksum.
Qed.
Lemma conj_read : forall fix_nc nc (c : acc O) v, acc_read (conj_acc fix_nc nc c) v = acc_read c v.
Proof. intros. destruct c; simpl; try destruct (fix_nc && nc); simpl; rewrite ?Hc; reflexivity. Qed.
Lemma vget_conj : forall fix_nc nc (x : vec O) i, same_effect (vget (conjugated_v fix_nc nc x) i) (vget x i).
Proof. intros. unfold vget, conjugated_v. simpl. destruct (i <? vext x); [|apply peq_refl].
  intros m. simpl. change (vaddr {| vbase := vbase x; vext := vext x; voff := voff x; vacc := conj_acc fix_nc nc (vacc x) |} i) with (vaddr x i).
  destruct (m (vaddr x i)); [rewrite conj_read|]; reflexivity.
Qed.
Lemma dotc_kind : forall fix_nc nc (x y : vec O) (init : O), same_effect (dotc fix_nc nc x y init) (dot x y init).
Proof.
  intros. unfold dotc, dot. simpl. apply peq_fold_range. intros i s Hi. apply peq_bind; [apply vget_conj|]. intros; apply peq_refl.
Qed.
Lemma gerc_kind : forall fix_nc nc (x y : vec O) (A : mat O), same_effect (matrix_rank_1_update_c fix_nc nc x y A) (matrix_rank_1_update x y A).
Proof.
  intros. unfold matrix_rank_1_update_c, matrix_rank_1_update. apply peq_for_range. intros i Hi. apply peq_for_range. intros j Hj.
  apply peq_bind; [apply peq_refl|]. intros xi. apply peq_bind; [apply vget_conj|]. intros; apply peq_refl.
Qed.
Lemma givens_kind : forall (x y : vec O) (c s : O), same_effect (apply_givens_rotation_c x y c s) (apply_givens_rotation x y c s).
Proof. intros. unfold apply_givens_rotation_c, apply_givens_rotation. rewrite Hc. apply peq_refl. Qed.
End Agree.

Lemma kind_conj : forall e, ekind e <> KCustomAdl -> forall v : ops_of e, conj v = v.
Proof. intros e H v. simpl. unfold conj_if_needed. destruct (ekind e); auto. contradiction. Qed.
Lemma kind_real : forall e, ekind e <> KCustomAdl -> forall v : ops_of e, re v = v.
Proof. intros e H v. simpl. unfold real_if_needed. destruct (ekind e); auto. contradiction. Qed.

Section Mags.
Variables (e : elem) (F : rops) (adl_imag : etype e -> etype e) (to std_abs adl_abs : etype e -> F).
Lemma abs_sum_kinds : forall (m : mem (ops_of e)) v f (init : F), vec_holds m v f ->
  match mags_of e F adl_imag to std_abs adl_abs with
  | None => ekind e = KCustomNoAdl
  | Some M =>
      ekind e <> KCustomNoAdl /\
      succeeds (vector_abs_sum M v init) m (fun r m' => m' = m /\
        r = match ekind e with
            | KUnsigned => fold_left (fun s i => radd s (to (f i))) (seq 0 (vext v)) init
            | KArith => fold_left (fun s i => radd s (std_abs (f i))) (seq 0 (vext v)) init
            | _ => fold_left (fun s i => radd (radd s (rabs (to (adl_real e (f i))))) (rabs (to (adl_imag (f i))))) (seq 0 (vext v)) init
            end)
  end.
Proof.
  intros m v f init Hv. unfold mags_of. destruct (ekind e) eqn:K; unfold abs_if_needed; auto; (split; [discriminate|]);
    unfold vector_abs_sum; cbn [arithmetic is_arithmetic].
  - eapply wp_fold_range with (I := fun k s m' => m' = m /\ s = fold_left (fun s i => radd s (to (f i))) (seq 0 k) init); auto; try lia.
    intros i s m' Hi [-> ->]. apply wp_bind. eapply wp_vget; eauto; try lia. apply wp_ret. rewrite seq_S, fold_left_app. auto.
  - eapply wp_fold_range with (I := fun k s m' => m' = m /\ s = fold_left (fun s i => radd s (std_abs (f i))) (seq 0 k) init); auto; try lia.
    intros i s m' Hi [-> ->]. apply wp_bind. eapply wp_vget; eauto; try lia. apply wp_ret. rewrite seq_S, fold_left_app. auto.
  - eapply wp_fold_range with (I := fun k s m' => m' = m /\ s = fold_left (fun s i => radd (radd s (rabs (to (adl_real e (f i))))) (rabs (to (adl_imag (f i))))) (seq 0 k) init); auto; try lia.
    intros i s m' Hi [-> ->]. apply wp_bind. eapply wp_vget; eauto; try lia. apply wp_bind. eapply wp_vget; eauto; try lia.
    apply wp_ret. rewrite seq_S, fold_left_app. auto.
Qed.
End Mags.
Lemma adl_helpers : forall e, ekind e = KCustomAdl -> forall v : ops_of e, conj v = adl_conj e v /\ re v = adl_real e v.
Proof. intros e H v. simpl. unfold conj_if_needed, real_if_needed. rewrite H. auto. Qed.

(** The same by kinds of element types. *)
Lemma helpers_ok : forall (e : elem) (v : ops_of e),
  (ekind e = KCustomAdl -> conj v = adl_conj e v /\ re v = adl_real e v) /\
  (ekind e <> KCustomAdl -> conj v = v /\ re v = v).
Proof. intros e v. split; intros H; [apply adl_helpers; auto|split; [apply kind_conj|apply kind_real]; auto]. Qed.
Lemma dotc_adl : forall e, ekind e = KCustomAdl -> (forall v, adl_conj e (adl_conj e v) = v) ->
  forall fix_nc (m : mem (ops_of e)) x y f g init, vext x = vext y -> vec_holds m x f -> vec_holds m y g ->
  succeeds (dotc fix_nc false x y init) m (fun r m' =>
    r = sum_from init 0 (vext x) (fun k => emul e (adl_conj e (f k)) (g k)) /\ m' = m).
Proof.
  intros e K Hcc fix_nc m x y f g init He Hx Hy. eapply wp_conseq.
  - apply (@dotc_ok (ops_of e)) with (f := f) (g := g); auto; try discriminate.
    intros v. rewrite !(fun w => proj1 (adl_helpers e K w)). apply Hcc.
  - intros r m' [-> ->]. split; auto. apply sum_from_ext. intros k Hk. rewrite (proj1 (adl_helpers e K (f k))). reflexivity.
Qed.
Lemma dotc_kinds : forall e, ekind e <> KCustomAdl -> forall fix_nc nc (x y : vec (ops_of e)) init,
  same_effect (dotc fix_nc nc x y init) (dot x y init).
Proof. intros e K. intros. apply dotc_kind. apply kind_conj; auto. Qed.
Lemma gerc_kinds : forall e, ekind e <> KCustomAdl -> forall fix_nc nc (x y : vec (ops_of e)) A,
  same_effect (matrix_rank_1_update_c fix_nc nc x y A) (matrix_rank_1_update x y A).
Proof. intros e K. intros. apply gerc_kind. apply kind_conj; auto. Qed.
Lemma givens_kinds : forall e, ekind e <> KCustomAdl -> forall (x y : vec (ops_of e)) c s,
  same_effect (apply_givens_rotation_c x y c s) (apply_givens_rotation x y c s).
Proof. intros e K. intros. apply givens_kind. apply kind_conj; auto. Qed.
Lemma hemv_kinds : forall e, ekind e <> KCustomAdl -> forall (m : mem (ops_of e)) A t x y a f,
  ext0 A = ext1 A -> vext x = ext1 A -> vext y = ext0 A ->
  mat_holds_on m A (in_tri t) a -> vec_holds m x f -> vwritable y -> allocated m (vcells y) ->
  disjoint (mcells_on A (in_tri t)) (vcells y) -> disjoint (vcells x) (vcells y) ->
  same_result (hermitian_matrix_vector_product A t x y) (symmetric_matrix_vector_product A t x y) m.
Proof. intros e K. intros. eapply hemv_kind; eauto using kind_conj, kind_real. Qed.
Lemma hemv_upd_kinds : forall e, ekind e <> KCustomAdl -> forall (m : mem (ops_of e)) A t x y z a f g,
  ext0 A = ext1 A -> vext x = ext1 A -> vext y = ext0 A -> vext z = ext0 A ->
  mat_holds_on m A (in_tri t) a -> vec_holds m x f -> vec_holds m y g -> vwritable z -> allocated m (vcells z) ->
  disjoint (mcells_on A (in_tri t)) (vcells z) -> disjoint (vcells x) (vcells z) -> disjoint_or_aligned_v y z ->
  same_result (hermitian_matrix_vector_product_upd A t x y z) (symmetric_matrix_vector_product_upd A t x y z) m.
Proof. intros e K. intros. eapply hemv_upd_kind; eauto using kind_conj, kind_real. Qed.
Lemma hemm_left_kinds : forall e, ekind e <> KCustomAdl -> forall (m : mem (ops_of e)) A t B C a b,
  ext0 A = ext1 A -> ext0 C = ext0 A -> ext1 A = ext0 B -> ext1 C = ext1 B ->
  mat_holds_on m A (in_tri t) a -> mat_holds m B b -> mwritable C -> allocated m (mcells C) ->
  disjoint (mcells_on A (in_tri t)) (mcells C) -> disjoint (mcells B) (mcells C) ->
  same_result (hermitian_matrix_product_left A t B C) (symmetric_matrix_product_left A t B C) m.
Proof. intros e K. intros. eapply hemm_left_kind; eauto using kind_conj, kind_real. Qed.
Lemma hemm_right_kinds : forall e, ekind e <> KCustomAdl -> forall (m : mem (ops_of e)) B A t C a b,
  ext0 A = ext1 A -> ext0 C = ext0 B -> ext1 B = ext0 A -> ext1 C = ext1 A ->
  mat_holds_on m A (in_tri t) a -> mat_holds m B b -> mwritable C -> allocated m (mcells C) ->
  disjoint (mcells_on A (in_tri t)) (mcells C) -> disjoint (mcells B) (mcells C) ->
  same_result (hermitian_matrix_product_right B A t C) (symmetric_matrix_product_right B A t C) m.
Proof. intros e K. intros. eapply hemm_right_kind; eauto using kind_conj, kind_real. Qed.
Lemma her_kinds : forall e, ekind e <> KCustomAdl -> forall (m : mem (ops_of e)) x A t a f,
  ext0 A = ext1 A -> vext x = ext0 A ->
  mat_holds_on m A (in_tri t) a -> vec_holds m x f -> mwritable_on A (in_tri t) ->
  disjoint (vcells x) (mcells_on A (in_tri t)) ->
  same_result (hermitian_matrix_rank_1_update x A t) (symmetric_matrix_rank_1_update x A t) m.
Proof. intros e K. intros. eapply her_kind; eauto using kind_conj, kind_real. Qed.
Lemma her_alpha_kinds : forall e, ekind e <> KCustomAdl -> forall (m : mem (ops_of e)) alpha x A t a f,
  ext0 A = ext1 A -> vext x = ext0 A ->
  mat_holds_on m A (in_tri t) a -> vec_holds m x f -> mwritable_on A (in_tri t) ->
  disjoint (vcells x) (mcells_on A (in_tri t)) ->
  same_result (hermitian_matrix_rank_1_update_alpha alpha x A t) (symmetric_matrix_rank_1_update_alpha alpha x A t) m.
Proof. intros e K. intros. eapply her_alpha_kind; eauto using kind_conj, kind_real. Qed.
Lemma her2_kinds : forall e, ekind e <> KCustomAdl -> forall (m : mem (ops_of e)) x y A t a f g,
  ext0 A = ext1 A -> vext x = ext0 A -> vext y = ext0 A ->
  mat_holds_on m A (in_tri t) a -> vec_holds m x f -> vec_holds m y g -> mwritable_on A (in_tri t) ->
  disjoint (vcells x) (mcells_on A (in_tri t)) -> disjoint (vcells y) (mcells_on A (in_tri t)) ->
  same_result (hermitian_matrix_rank_2_update x y A t) (symmetric_matrix_rank_2_update x y A t) m.
Proof. intros e K. intros. eapply her2_kind; eauto using kind_conj, kind_real. Qed.
Lemma herk_kinds : forall e, ekind e <> KCustomAdl -> forall (m : mem (ops_of e)) A C t a c,
  ext0 C = ext1 C -> ext0 A = ext0 C ->
  mat_holds m A a -> mat_holds_on m C (in_tri t) c -> mwritable_on C (in_tri t) ->
  disjoint (mcells A) (mcells_on C (in_tri t)) ->
  same_result (hermitian_matrix_rank_k_update A C t) (symmetric_matrix_rank_k_update A C t) m.
Proof. intros e K. intros. eapply herk_kind; eauto using kind_conj, kind_real. Qed.
Lemma herk_alpha_kinds : forall e, ekind e <> KCustomAdl -> forall (m : mem (ops_of e)) alpha A C t a c,
  ext0 C = ext1 C -> ext0 A = ext0 C ->
  mat_holds m A a -> mat_holds_on m C (in_tri t) c -> mwritable_on C (in_tri t) ->
  disjoint (mcells A) (mcells_on C (in_tri t)) ->
  same_result (hermitian_matrix_rank_k_update_alpha alpha A C t) (symmetric_matrix_rank_k_update_alpha alpha A C t) m.
Proof. intros e K. intros. eapply herk_alpha_kind; eauto using kind_conj, kind_real. Qed.
Lemma her2k_kinds : forall e, ekind e <> KCustomAdl -> forall (m : mem (ops_of e)) A B C t a b c,
  ext0 C = ext1 C -> ext0 A = ext0 C -> ext0 B = ext0 C -> ext1 B = ext1 A ->
  mat_holds m A a -> mat_holds m B b -> mat_holds_on m C (in_tri t) c -> mwritable_on C (in_tri t) ->
  disjoint (mcells A) (mcells_on C (in_tri t)) -> disjoint (mcells B) (mcells_on C (in_tri t)) ->
  same_result (hermitian_matrix_rank_2k_update A B C t) (symmetric_matrix_rank_2k_update A B C t) m.
Proof. intros e K. intros. eapply her2k_kind; eauto using kind_conj, kind_real. Qed.
