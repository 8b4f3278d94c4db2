(** C67, C76: built-in integer element types. *)
From Coq Require Import List Arith ZArith NArith Lia Bool.
From Verif Require Import Mem Scalar View Spec SpecR SpecI Norm Int Blas1 Blas2 Blas3 Wp PfInt PfInt2 Idx Inst.
Import ListNotations.
Local Open Scope Z_scope.

(** 32-bit int and 8-bit unsigned, for the concrete cases. *)
Definition I32 : ops := sint_ops 32.
Definition U8 : ops := uint_ops 8.
Notation u8 := (reduce 8 : Z -> U8).
Notation si := (@Some Z : Z -> I32).
Definition zv (l : list Z) (i : nat) : Z := nth i l 0.
Definition zmm (l : list (list Z)) (i j : nat) : Z := nth j (nth i l []) 0.

(** * Unsigned types *)
(** Arithmetic modulo 2^w satisfies every law that the other theorems ask of the element type, except those of
    division: all of them apply. *)
Theorem C67_unsigned_ring : forall w, ring_laws (uint_ops w) /\ mul_commutes (uint_ops w) /\ conj_laws (uint_ops w).
Proof. exact (fun w => Logic.conj (uint_ring w) (Logic.conj (uint_comm w) (uint_conj w))). Qed.
Print Assumptions C67_unsigned_ring.
Example C67_unsigned_ring_case :
  uval (@add U8 (u8 200) (u8 100)) = 44 /\ uval (@mul U8 (u8 200) (@add U8 (u8 1) (u8 2))) = 88 /\ uval (@sub U8 (u8 1) (u8 2)) = 255.
Proof. vm_compute. auto. Qed.

Theorem C67_unsigned_dot : forall w (m : mem (uint_ops w)) x y f g init,
  vext x = vext y -> vec_holds m x f -> vec_holds m y g ->
  returns (dot x y init) m (fun r => uval r = (uval init + zsum (vext x) (fun k => uval (f k) * uval (g k))) mod 2 ^ w).
Proof. exact dot_uint. Qed.
Print Assumptions C67_unsigned_dot.
Example C67_unsigned_dot_case :
  returns (dot (vec_at 0 2) (vec_at 2 2) (u8 255)) (mem_of [u8 20; u8 3; u8 50; u8 7]) (fun r => uval r = (255 + (20 * 50 + 3 * 7)) mod 256).
Proof. apply (C67_unsigned_dot 8 _ (vec_at 0 2) (vec_at 2 2) (velt [u8 20; u8 3]) (velt [u8 50; u8 7])); concrete. Qed.

Theorem C67_unsigned_matrix_product : forall w (m : mem (uint_ops w)) A B E C a b e,
  ext0 C = ext0 A -> ext1 A = ext0 B -> ext1 C = ext1 B -> ext0 E = ext0 C -> ext1 E = ext1 C ->
  mat_holds m A a -> mat_holds m B b -> mat_holds m E e -> mwritable C -> allocated m (mcells C) ->
  disjoint (mcells A) (mcells C) -> disjoint (mcells B) (mcells C) -> disjoint_or_aligned_m E C ->
  succeeds (matrix_product_upd A B E C) m (fun _ m' => exists c, mat_holds m' C c /\
    (forall i j, uval (c i j) = (uval (e i j) + zsum (ext1 A) (fun k => uval (a i k) * uval (b k j))) mod 2 ^ w) /\
    changes_only m m' (mcells C)).
Proof. exact gemm_uint. Qed.
Print Assumptions C67_unsigned_matrix_product.
Example C67_unsigned_matrix_product_case :
  let m : mem U8 := mem_of [u8 100; u8 2; u8 30; u8 40; u8 250] in
  succeeds (matrix_product_upd (row_major 0 1 2) (row_major 2 2 1) (row_major 4 1 1) (row_major 4 1 1)) m (fun _ m' =>
    exists c, mat_holds m' (row_major 4 1 1) c /\ uval (c 0%nat 0%nat : U8) = (250 + (100 * 30 + 2 * 40)) mod 256 /\
    changes_only m m' (mcells (O := U8) (row_major 4 1 1))).
Proof.
  intros. eapply wp_conseq.
  - apply (C67_unsigned_matrix_product 8 m (row_major 0 1 2) (row_major 2 2 1) (row_major 4 1 1) (row_major 4 1 1)
      (melt [[u8 100; u8 2]]) (melt [[u8 30]; [u8 40]]) (melt [[u8 250]])); concrete.
  - intros _ m' (c & H1 & H2 & H3). exists c. split; auto. split; auto. apply (H2 0%nat 0%nat).
Qed.

(** * Signed types: the result is the exact one and no overflow occurs on the way as long as the sum of the
    magnitudes of the terms is representable.  (None, an overflow or division by zero, is undefined behaviour.) *)
Theorem C67_signed_dot : forall w (m : mem (sint_ops w)) x y (f g : nat -> Z) init, vext x = vext y ->
  vec_holds m x (fun i => Some (f i)) -> vec_holds m y (fun i => Some (g i)) ->
  Z.abs init + zsum (vext x) (fun k => Z.abs (f k * g k)) <= int_max w ->
  returns (dot x y (Some init)) m (fun r => r = Some (init + zsum (vext x) (fun k => f k * g k))).
Proof. exact dot_sint. Qed.
Print Assumptions C67_signed_dot.
(** The bound is attained: 2^31 - 1 = 7 + 2 * 1073741820; one more is undefined. *)
Example C67_signed_dot_case :
  returns (dot (vec_at 0 1) (vec_at 1 1) (si 7)) (mem_of [si 2; si 1073741820]) (fun r => r = Some 2147483647) /\
  returns (dot (vec_at 0 1) (vec_at 1 1) (si 8)) (mem_of [si 2; si 1073741820]) (fun r => r = None).
Proof.
  split.
  - apply (C67_signed_dot 32 _ (vec_at 0 1) (vec_at 1 1) (zv [2]) (zv [1073741820]) 7); [concrete|concrete|concrete|vm_compute; discriminate].
  - eexists. split; [vm_compute; reflexivity|reflexivity].
Qed.

Theorem C67_signed_matrix_vector_product : forall w (m : mem (sint_ops w)) A x y (a : nat -> nat -> Z) (f : nat -> Z),
  vext x = ext1 A -> vext y = ext0 A -> mat_holds m A (fun i j => Some (a i j)) -> vec_holds m x (fun i => Some (f i)) ->
  vwritable y -> allocated m (vcells y) -> disjoint (mcells A) (vcells y) -> disjoint (vcells x) (vcells y) ->
  (forall i, (i < ext0 A)%nat -> zsum (ext1 A) (fun j => Z.abs (a i j * f j)) <= int_max w) ->
  succeeds (matrix_vector_product A x y) m (fun _ m' =>
    vec_holds m' y (fun i => Some (zsum (ext1 A) (fun j => a i j * f j))) /\ changes_only m m' (vcells y)).
Proof. exact gemv_sint. Qed.
Print Assumptions C67_signed_matrix_vector_product.
Example C67_signed_matrix_vector_product_case :
  let m : mem I32 := mem_of [si 1; si (-2); si 3; si 4; si 5; si 1000000; si 0; si 0] in
  succeeds (matrix_vector_product (row_major 0 2 2) (vec_at 4 2) (vec_at 6 2)) m (fun _ m' =>
    vec_holds m' (vec_at 6 2) (fun i => Some (zsum 2 (fun j => zmm [[1;-2];[3;4]] i j * zv [5;1000000] j)) : I32) /\
    changes_only m m' (vcells (O := I32) (vec_at 6 2))).
Proof.
  intros. apply (C67_signed_matrix_vector_product 32 m (row_major 0 2 2) (vec_at 4 2) (vec_at 6 2) (zmm [[1;-2];[3;4]]) (zv [5;1000000]));
    try (intros [|[|i]] Hi; simpl in Hi; try lia; vm_compute; discriminate); concrete.
Qed.

Theorem C67_signed_matrix_product : forall w (m : mem (sint_ops w)) A B E C (a b e : nat -> nat -> Z),
  ext0 C = ext0 A -> ext1 A = ext0 B -> ext1 C = ext1 B -> ext0 E = ext0 C -> ext1 E = ext1 C ->
  mat_holds m A (fun i j => Some (a i j)) -> mat_holds m B (fun i j => Some (b i j)) -> mat_holds m E (fun i j => Some (e i j)) ->
  mwritable C -> allocated m (mcells C) ->
  disjoint (mcells A) (mcells C) -> disjoint (mcells B) (mcells C) -> disjoint_or_aligned_m E C ->
  (forall i j, (i < ext0 C)%nat -> (j < ext1 C)%nat -> Z.abs (e i j) + zsum (ext1 A) (fun k => Z.abs (a i k * b k j)) <= int_max w) ->
  succeeds (matrix_product_upd A B E C) m (fun _ m' =>
    mat_holds m' C (fun i j => Some (e i j + zsum (ext1 A) (fun k => a i k * b k j))) /\ changes_only m m' (mcells C)).
Proof. exact gemm_sint. Qed.
Print Assumptions C67_signed_matrix_product.
Example C67_signed_matrix_product_case :
  let m : mem I32 := mem_of [si 100; si (-2); si 30; si 40; si 7] in
  succeeds (matrix_product_upd (row_major 0 1 2) (row_major 2 2 1) (row_major 4 1 1) (row_major 4 1 1)) m (fun _ m' =>
    mat_holds m' (row_major 4 1 1) (fun i j => Some (zmm [[7]] i j + zsum 2 (fun k => zmm [[100;-2]] i k * zmm [[30];[40]] k j)) : I32) /\
    changes_only m m' (mcells (O := I32) (row_major 4 1 1))).
Proof.
  intros. apply (C67_signed_matrix_product 32 m (row_major 0 1 2) (row_major 2 2 1) (row_major 4 1 1) (row_major 4 1 1)
      (zmm [[100;-2]]) (zmm [[30];[40]]) (zmm [[7]]));
    try (intros [|i] [|j] Hi Hj; simpl in Hi, Hj; try lia; vm_compute; discriminate); concrete.
Qed.

Theorem C67_signed_abs_sum : forall w (m : mem (sint_ops w)) x (f : nat -> Z) init, vec_holds m x (fun i => Some (f i)) ->
  Z.abs init + zsum (vext x) (fun i => Z.abs (f i)) <= int_max w ->
  returns (vector_abs_sum (sint_mags w) x (Some init : sint_r w)) m (fun r => r = Some (init + zsum (vext x) (fun i => Z.abs (f i)))).
Proof. exact abs_sum_sint. Qed.
Print Assumptions C67_signed_abs_sum.
(** The magnitude of the least number is not representable. *)
Example C67_signed_abs_sum_case :
  returns (vector_abs_sum (sint_mags 32) (vec_at 0 2) (Some (-5) : sint_r 32)) (mem_of [si (-2147483640); si 2]) (fun r => r = Some 2147483637) /\
  returns (vector_abs_sum (sint_mags 32) (vec_at 0 1) (Some 0 : sint_r 32)) (mem_of [si (-2147483648)]) (fun r => r = None).
Proof.
  split.
  - apply (C67_signed_abs_sum 32 _ (vec_at 0 2) (zv [-2147483640; 2]) (-5)); [concrete|vm_compute; discriminate].
  - eexists. split; [vm_compute; reflexivity|reflexivity].
Qed.

Theorem C67_signed_inf_norm : forall w (m : mem (sint_ops w)) A (a : nat -> nat -> Z) init, mat_holds m A (fun i j => Some (a i j)) ->
  (forall i, (i < ext0 A)%nat -> Z.abs init + zsum (ext1 A) (fun j => Z.abs (a i j)) <= int_max w) ->
  returns (matrix_inf_norm (sint_mags w) A (Some init : sint_r w)) m (fun r =>
    r = Some (init + zmax0 (ext0 A) (fun i => zsum (ext1 A) (fun j => Z.abs (a i j))))).
Proof. exact inf_norm_sint. Qed.
Print Assumptions C67_signed_inf_norm.
Theorem C67_signed_one_norm : forall w (m : mem (sint_ops w)) A (a : nat -> nat -> Z) init, mat_holds m A (fun i j => Some (a i j)) ->
  (forall j, (j < ext1 A)%nat -> Z.abs init + zsum (ext0 A) (fun i => Z.abs (a i j)) <= int_max w) ->
  returns (matrix_one_norm (sint_mags w) A (Some init : sint_r w)) m (fun r =>
    r = Some (init + zmax0 (ext1 A) (fun j => zsum (ext0 A) (fun i => Z.abs (a i j))))).
Proof. exact one_norm_sint. Qed.
Print Assumptions C67_signed_one_norm.
Example C67_signed_matrix_norm_case :
  returns (matrix_inf_norm (sint_mags 32) (row_major 0 2 2) (Some 10 : sint_r 32)) (mem_of [si 1; si (-7); si 3; si 4]) (fun r => r = Some 18) /\
  returns (matrix_one_norm (sint_mags 32) (row_major 0 2 2) (Some 10 : sint_r 32)) (mem_of [si 1; si (-7); si 3; si 4]) (fun r => r = Some 21).
Proof.
  split.
  - apply (C67_signed_inf_norm 32 _ (row_major 0 2 2) (zmm [[1;-7];[3;4]]) 10); [concrete|].
    intros [|[|i]] Hi; simpl in Hi; try lia; vm_compute; discriminate.
  - apply (C67_signed_one_norm 32 _ (row_major 0 2 2) (zmm [[1;-7];[3;4]]) 10); [concrete|].
    intros [|[|i]] Hi; simpl in Hi; try lia; vm_compute; discriminate.
Qed.

Theorem C67_signed_idx_abs_max : forall w (m : mem (sint_ops w)) x (f : nat -> Z) size_max, vec_holds m x (fun i => Some (f i)) ->
  (forall i, (i < vext x)%nat -> Z.abs (f i) <= int_max w) ->
  succeeds (@vector_idx_abs_max (sint_ops w) _ (sabs w) (@rltb (sint_r w)) size_max x) m (fun r m' => m' = m /\
    ((vext x = 0%nat /\ r = size_max) \/
     exists k, r = N.of_nat k /\ (k < vext x)%nat /\ (forall i, (i < vext x)%nat -> Z.abs (f i) <= Z.abs (f k)) /\
       (forall i, (i < k)%nat -> Z.abs (f i) < Z.abs (f k)))).
Proof. exact idx_sint. Qed.
Print Assumptions C67_signed_idx_abs_max.
Example C67_signed_idx_abs_max_case :
  let m : mem I32 := mem_of [si 3; si (-9); si 9] in
  succeeds (@vector_idx_abs_max I32 _ (sabs 32) (@rltb (sint_r 32)) 255%N (vec_at 0 3)) m (fun r m' => m' = m /\
    ((3 = 0 /\ r = 255%N) \/
     exists k, r = N.of_nat k /\ (k < 3)%nat /\ (forall i, (i < 3)%nat -> Z.abs (zv [3;-9;9] i) <= Z.abs (zv [3;-9;9] k)) /\
       (forall i, (i < k)%nat -> Z.abs (zv [3;-9;9] i) < Z.abs (zv [3;-9;9] k)))).
Proof.
  intros. eapply wp_conseq.
  - apply (C67_signed_idx_abs_max 32 m (vec_at 0 3) (zv [3;-9;9]) 255%N); [concrete|].
    intros [|[|[|i]]] Hi; simpl in Hi; try lia; vm_compute; discriminate.
  - intros r m' [H [[K _]|K]]; split; auto. discriminate K.
Qed.

(** * The 2-norm and the Frobenius norm: the scaling divides in the integer type *)
(** 3^2 + 4^2 = 5^2, but the 2-norm of (3, 4) is computed as 4. *)
Theorem C67_two_norm_refuted : exists (m : mem (sint_ops 32)) x (f : nat -> Z), vext x = 2%nat /\ vec_holds m x (fun i => Some (f i)) /\
  zsum 2 (fun i => f i * f i) = 5 * 5 /\
  returns (vector_two_norm_noinit (sint_mags 32) x) m (fun r => r = Some 4).
Proof.
  exists (mem_of [si 3; si 4]), (vec_at 0 2), (zv [3; 4]). split; [reflexivity|]. split; [concrete|]. split; [reflexivity|].
  eexists. split; [vm_compute; reflexivity|reflexivity].
Qed.
Print Assumptions C67_two_norm_refuted.
Theorem C67_frob_norm_refuted : exists (m : mem (sint_ops 32)) A (a : nat -> nat -> Z), ext0 A = 1%nat /\ ext1 A = 2%nat /\
  mat_holds m A (fun i j => Some (a i j)) /\ zsum 2 (fun j => a 0%nat j * a 0%nat j) = 5 * 5 /\
  returns (matrix_frob_norm_noinit (sint_mags 32) A) m (fun r => r = Some 4).
Proof.
  exists (mem_of [si 3; si 4]), (row_major 0 1 2), (zmm [[3; 4]]). split; [reflexivity|]. split; [reflexivity|].
  split; [concrete|]. split; [reflexivity|].
  eexists. split; [vm_compute; reflexivity|reflexivity].
Qed.
Print Assumptions C67_frob_norm_refuted.

(** * C76: undefined behaviour is exactly an intermediate result out of range or a zero divisor; integer solves *)
(** [Some z]: the value z, no undefined behaviour on the way; [None]: undefined behaviour. *)
Theorem C76_dot : forall w (m : mem (sint_ops w)) x y (f g : nat -> Z) init, vext x = vext y ->
  vec_holds m x (fun i => Some (f i)) -> vec_holds m y (fun i => Some (g i)) ->
  returns (dot x y (Some init)) m (fun r =>
    ((forall k, (k < vext x)%nat -> in_range w (f k * g k) /\ in_range w (init + zsum (S k) (fun k => f k * g k))) ->
       r = Some (init + zsum (vext x) (fun k => f k * g k))) /\
    ((exists k, (k < vext x)%nat /\ ~ (in_range w (f k * g k) /\ in_range w (init + zsum (S k) (fun k => f k * g k)))) -> r = None)).
Proof. exact dot_overflow. Qed.
Print Assumptions C76_dot.
(** -2^31 is reached without overflow; 2^31 - 1 + 1 - 1 is not, although the exact value is representable. *)
Example C76_dot_case :
  returns (dot (vec_at 0 2) (vec_at 2 2) (si (-1))) (mem_of [si 1; si (-1); si (-2147483646); si 1]) (fun r => r = Some (-2147483648)) /\
  returns (dot (vec_at 0 2) (vec_at 2 2) (si 2147483647)) (mem_of [si 1; si (-1); si 1; si 1]) (fun r => r = None).
Proof.
  split.
  - destruct (C76_dot 32 (mem_of [si 1; si (-1); si (-2147483646); si 1]) (vec_at 0 2) (vec_at 2 2) (zv [1; -1]) (zv [-2147483646; 1]) (-1))
      as (r & Hr & K & _); [concrete..|]. exists r. split; auto. apply K.
    intros [|[|k]] Hk; simpl in Hk; try lia; unfold in_range; vm_compute; intuition discriminate.
  - destruct (C76_dot 32 (mem_of [si 1; si (-1); si 1; si 1]) (vec_at 0 2) (vec_at 2 2) (zv [1; -1]) (zv [1; 1]) 2147483647)
      as (r & Hr & _ & K); [concrete..|]. exists r. split; auto. apply K. exists 0%nat. split; [simpl; lia|].
    unfold in_range. vm_compute. intuition.
Qed.

Theorem C76_matrix_product : forall w (m : mem (sint_ops w)) A B E C (a b e : nat -> nat -> Z),
  ext0 C = ext0 A -> ext1 A = ext0 B -> ext1 C = ext1 B -> ext0 E = ext0 C -> ext1 E = ext1 C ->
  mat_holds m A (fun i j => Some (a i j)) -> mat_holds m B (fun i j => Some (b i j)) -> mat_holds m E (fun i j => Some (e i j)) ->
  mwritable C -> allocated m (mcells C) ->
  disjoint (mcells A) (mcells C) -> disjoint (mcells B) (mcells C) -> disjoint_or_aligned_m E C ->
  succeeds (matrix_product_upd A B E C) m (fun _ m' =>
    (exists c : nat -> nat -> option Z, mat_holds (O := sint_ops w) m' C c /\ forall i j, (i < ext0 C)%nat -> (j < ext1 C)%nat ->
      ((forall k, (k < ext1 A)%nat -> in_range w (a i k * b k j) /\ in_range w (e i j + zsum (S k) (fun k => a i k * b k j))) ->
         c i j = Some (e i j + zsum (ext1 A) (fun k => a i k * b k j))) /\
      ((exists k, (k < ext1 A)%nat /\ ~ (in_range w (a i k * b k j) /\ in_range w (e i j + zsum (S k) (fun k => a i k * b k j)))) ->
         c i j = None)) /\
    changes_only m m' (mcells C)).
Proof. exact gemm_overflow. Qed.
Print Assumptions C76_matrix_product.
Example C76_matrix_product_case :
  let m : mem I32 := mem_of [si 65536; si 2; si 32768; si (-1); si 7; si 9] in
  succeeds (matrix_product_upd (row_major 0 2 1) (row_major 2 1 1) (row_major 4 2 1) (row_major 4 2 1)) m (fun _ m' =>
    m' 4%nat = Some None /\ m' 5%nat = Some (si 65545)).
Proof.
  intros. eapply wp_conseq.
  - apply (C76_matrix_product 32 m (row_major 0 2 1) (row_major 2 1 1) (row_major 4 2 1) (row_major 4 2 1)
      (zmm [[65536];[2]]) (zmm [[32768]]) (zmm [[7];[9]])); concrete.
  - intros _ m' [(c & H & K) _]. split.
    + destruct (H 0%nat 0%nat) as (v & Hv & E); [simpl; lia..|exact I|]. simpl in E. subst v. change (m' 4%nat = Some (c 0%nat 0%nat)) in Hv. rewrite Hv. f_equal.
      refine (proj2 (K 0%nat 0%nat _ _) _); [simpl; lia..|]. exists 0%nat. split; [simpl; lia|]. unfold in_range. vm_compute. intuition.
    + destruct (H 1%nat 0%nat) as (v & Hv & E); [simpl; lia..|exact I|]. simpl in E. subst v. change (m' 5%nat = Some (c 1%nat 0%nat)) in Hv. rewrite Hv. apply (f_equal (@Some (option Z))).
      etransitivity; [refine (proj1 (K 1%nat 0%nat _ _) _); [simpl; lia..|]|vm_compute; reflexivity]. intros [|k] Hk; simpl in Hk; try lia. unfold in_range; vm_compute; intuition discriminate.
Qed.

Theorem C76_scale : forall w (m : mem (sint_ops w)) alpha x (f : nat -> Z), vec_holds m x (fun i => Some (f i)) -> vwritable x ->
  succeeds (scale_1 (Some alpha : sint_ops w) x) m (fun _ m' =>
    (exists g : nat -> option Z, vec_holds (O := sint_ops w) m' x g /\ forall i, (i < vext x)%nat ->
      (in_range w (f i * alpha) -> g i = Some (f i * alpha)) /\ (~ in_range w (f i * alpha) -> g i = None)) /\
    changes_only m m' (vcells x)).
Proof. exact scale_overflow. Qed.
Print Assumptions C76_scale.
Example C76_scale_case :
  succeeds (scale_1 (si (-1)) (vec_at 0 2)) (mem_of [si (-2147483648); si 2147483647] : mem I32) (fun _ m' =>
    m' 0%nat = Some None /\ m' 1%nat = Some (si (-2147483647))).
Proof.
  eapply wp_conseq.
  - apply (C76_scale 32 _ (-1) (vec_at 0 2) (zv [-2147483648; 2147483647])); concrete.
  - intros _ m' [(g & H & K) _]. split.
    + destruct (H 0%nat) as (v & Hv & E); [simpl; lia|]. simpl in E. subst v. change (m' 0%nat = Some (g 0%nat)) in Hv. rewrite Hv. f_equal.
      refine (proj2 (K 0%nat _) _); [simpl; lia|]. unfold in_range. vm_compute. intuition.
    + destruct (H 1%nat) as (v & Hv & E); [simpl; lia|]. simpl in E. subst v. change (m' 1%nat = Some (g 1%nat)) in Hv. rewrite Hv. apply (f_equal (@Some (option Z))).
      etransitivity; [refine (proj1 (K 1%nat _) _); [simpl; lia|]|vm_compute; reflexivity]. unfold in_range; vm_compute; intuition discriminate.
Qed.

Theorem C76_abs_sum : forall w (m : mem (sint_ops w)) x (f : nat -> Z) init, vec_holds m x (fun i => Some (f i)) ->
  returns (vector_abs_sum (sint_mags w) x (Some init : sint_r w)) m (fun r =>
    ((forall k, (k < vext x)%nat -> in_range w (Z.abs (f k)) /\ in_range w (init + zsum (S k) (fun k => Z.abs (f k)))) ->
       r = Some (init + zsum (vext x) (fun k => Z.abs (f k)))) /\
    ((exists k, (k < vext x)%nat /\ ~ (in_range w (Z.abs (f k)) /\ in_range w (init + zsum (S k) (fun k => Z.abs (f k))))) -> r = None)).
Proof. exact abs_sum_overflow. Qed.
Print Assumptions C76_abs_sum.
(** |-2^31| is undefined although -5 + 2^31 would be representable. *)
Example C76_abs_sum_case :
  returns (vector_abs_sum (sint_mags 32) (vec_at 0 1) (Some (-5) : sint_r 32)) (mem_of [si (-2147483648)]) (fun r => r = None) /\
  returns (vector_abs_sum (sint_mags 32) (vec_at 0 1) (Some (-2147483648) : sint_r 32)) (mem_of [si (-2147483647)]) (fun r => r = Some (-1)).
Proof.
  split.
  - destruct (C76_abs_sum 32 (mem_of [si (-2147483648)]) (vec_at 0 1) (zv [-2147483648]) (-5)) as (r & Hr & _ & K); [concrete|].
    exists r. split; auto. apply K. exists 0%nat. split; [simpl; lia|]. unfold in_range. vm_compute. intuition.
  - destruct (C76_abs_sum 32 (mem_of [si (-2147483647)]) (vec_at 0 1) (zv [-2147483647]) (-2147483648)) as (r & Hr & K & _); [concrete|].
    exists r. split; auto. apply K. intros [|k] Hk; simpl in Hk; try lia. unfold in_range; vm_compute; intuition discriminate.
Qed.

(** Substitution in the integers: quotients are truncated towards zero. *)
Theorem C76_solve : forall w ty (m : mem (sint_ops w)) A t d B X (a : nat -> nat -> Z) (b x : nat -> Z),
  fits ty (ext0 A) -> (ext0 A = 0%nat -> t = Upper -> ty <> U32) ->
  ext0 A = ext1 A -> vext B = ext0 A -> vext X = ext0 A ->
  mat_holds_on m A (stored t d) (fun i j => Some (a i j)) -> vec_holds m B (fun i => Some (b i)) -> vwritable X -> allocated m (vcells X) ->
  disjoint (mcells_on A (stored t d)) (vcells X) -> disjoint_or_aligned_v B X ->
  (d = Explicit -> forall i, (i < ext0 A)%nat -> a i i <> 0) ->
  (forall i, (i < ext0 A)%nat ->
    let r := b i - zbefore t (ext0 A) i (fun j => a i j * x j) in
    x i = match d with Explicit => Z.quot r (a i i) | ImplicitUnit => r end) ->
  (forall i, (i < ext0 A)%nat -> Z.abs (b i) + zbefore t (ext0 A) i (fun j => Z.abs (a i j * x j)) <= int_max w) ->
  succeeds (triangular_matrix_vector_solve ty A t d B X) m (fun _ m' =>
    vec_holds m' X (fun i => Some (x i)) /\ changes_only m m' (vcells X)).
Proof. exact trsv_trunc. Qed.
Print Assumptions C76_solve.
(** [2 .; 1 3] x = (-7, 9): x = (-3, 4), quotients -3.5 and 4 *)
Example C76_solve_case :
  let m : mem I32 := mem_of [si 2; si 77; si 1; si 3; si (-7); si 9] in
  succeeds (triangular_matrix_vector_solve I64 (row_major 0 2 2) Lower Explicit (vec_at 4 2) (vec_at 4 2)) m (fun _ m' =>
    vec_holds m' (vec_at 4 2) (fun i => Some (zv [-3; 4] i) : I32) /\ changes_only m m' (vcells (O := I32) (vec_at 4 2))).
Proof.
  intros. apply (C76_solve 32 I64 m (row_major 0 2 2) Lower Explicit (vec_at 4 2) (vec_at 4 2) (zmm [[2;77];[1;3]]) (zv [-7; 9]) (zv [-3; 4]));
    try (intros; match goal with i : nat |- _ => destruct i as [|[|i]]; simpl in *; try lia end; vm_compute; congruence);
    try (intros _; intros [|[|i]] Hi; simpl in Hi; try lia; vm_compute; discriminate);
      first [solve [concrete] | split; vm_compute; discriminate | discriminate].
Qed.

(** If the system has an integer solution, it is found. *)
Theorem C76_solve_exact : forall w ty (m : mem (sint_ops w)) A t d B X (a : nat -> nat -> Z) (b x : nat -> Z),
  fits ty (ext0 A) -> (ext0 A = 0%nat -> t = Upper -> ty <> U32) ->
  ext0 A = ext1 A -> vext B = ext0 A -> vext X = ext0 A ->
  mat_holds_on m A (stored t d) (fun i j => Some (a i j)) -> vec_holds m B (fun i => Some (b i)) -> vwritable X -> allocated m (vcells X) ->
  disjoint (mcells_on A (stored t d)) (vcells X) -> disjoint_or_aligned_v B X ->
  (d = Explicit -> forall i, (i < ext0 A)%nat -> a i i <> 0) ->
  (forall i, (i < ext0 A)%nat -> zsum (ext0 A) (fun j => ztri t d a i j * x j) = b i) ->
  (forall i, (i < ext0 A)%nat -> Z.abs (b i) + zbefore t (ext0 A) i (fun j => Z.abs (a i j * x j)) <= int_max w) ->
  succeeds (triangular_matrix_vector_solve ty A t d B X) m (fun _ m' =>
    vec_holds m' X (fun i => Some (x i)) /\ changes_only m m' (vcells X)).
Proof. exact trsv_exact. Qed.
Print Assumptions C76_solve_exact.
Theorem C76_matrix_solve_exact : forall w ty (m : mem (sint_ops w)) A t d B X (a b x : nat -> nat -> Z),
  fits ty (ext0 A) -> (ext0 A = 0%nat -> t = Upper -> ty <> U32) ->
  ext0 A = ext1 A -> ext0 B = ext0 A -> ext0 X = ext0 A -> ext1 X = ext1 B ->
  mat_holds_on m A (stored t d) (fun i j => Some (a i j)) -> mat_holds m B (fun i j => Some (b i j)) -> mwritable X -> allocated m (mcells X) ->
  disjoint (mcells_on A (stored t d)) (mcells X) -> disjoint_or_aligned_m B X ->
  (d = Explicit -> forall i, (i < ext0 A)%nat -> a i i <> 0) ->
  (forall i j, (i < ext0 A)%nat -> (j < ext1 B)%nat -> zsum (ext0 A) (fun k => ztri t d a i k * x k j) = b i j) ->
  (forall i j, (i < ext0 A)%nat -> (j < ext1 B)%nat -> Z.abs (b i j) + zbefore t (ext0 A) i (fun k => Z.abs (a i k * x k j)) <= int_max w) ->
  succeeds (triangular_matrix_matrix_left_solve ty A t d B X) m (fun _ m' =>
    mat_holds m' X (fun i j => Some (x i j)) /\ changes_only m m' (mcells X)).
Proof. exact trsm_left_exact. Qed.
Print Assumptions C76_matrix_solve_exact.
(** [2 1; . -3] x = (8, -6): x = (3, 2) *)
Example C76_solve_exact_case :
  let m : mem I32 := mem_of [si 2; si 1; si 77; si (-3); si 8; si (-6)] in
  succeeds (triangular_matrix_vector_solve I64 (row_major 0 2 2) Upper Explicit (vec_at 4 2) (vec_at 4 2)) m (fun _ m' =>
    vec_holds m' (vec_at 4 2) (fun i => Some (zv [3; 2] i) : I32) /\ changes_only m m' (vcells (O := I32) (vec_at 4 2))) /\
  succeeds (triangular_matrix_matrix_left_solve I64 (row_major 0 2 2) Upper Explicit (row_major 4 2 1) (row_major 4 2 1)) m (fun _ m' =>
    mat_holds m' (row_major 4 2 1) (fun i j => Some (zmm [[3]; [2]] i j) : I32) /\ changes_only m m' (mcells (O := I32) (row_major 4 2 1))).
Proof.
  intros. split.
  - apply (C76_solve_exact 32 I64 m (row_major 0 2 2) Upper Explicit (vec_at 4 2) (vec_at 4 2) (zmm [[2;1];[77;-3]]) (zv [8; -6]) (zv [3; 2]));
      try (intros; match goal with i : nat |- _ => destruct i as [|[|i]]; simpl in *; try lia end; vm_compute; congruence);
      try (intros _; intros [|[|i]] Hi; simpl in Hi; try lia; vm_compute; discriminate);
      first [solve [concrete] | split; vm_compute; discriminate | discriminate].
  - apply (C76_matrix_solve_exact 32 I64 m (row_major 0 2 2) Upper Explicit (row_major 4 2 1) (row_major 4 2 1) (zmm [[2;1];[77;-3]]) (zmm [[8]; [-6]]) (zmm [[3]; [2]]));
      try (intros [|[|i]] [|j] Hi Hj; simpl in Hi, Hj; try lia; vm_compute; congruence);
      try (intros _; intros [|[|i]] Hi; simpl in Hi; try lia; vm_compute; discriminate);
      first [solve [concrete] | split; vm_compute; discriminate | discriminate].
Qed.

(** A zero on the diagonal is a division by zero. *)
Theorem C76_solve_zero_diagonal : forall w ty (m : mem (sint_ops w)) A t B X (a : nat -> nat -> Z) (b : nat -> Z) i,
  fits ty (ext0 A) -> ext0 A = ext1 A -> vext B = ext0 A -> vext X = ext0 A ->
  mat_holds_on m A (stored t Explicit) (fun i j => Some (a i j)) -> vec_holds m B (fun i => Some (b i)) -> vwritable X -> allocated m (vcells X) ->
  disjoint (mcells_on A (stored t Explicit)) (vcells X) -> disjoint_or_aligned_v B X ->
  (i < ext0 A)%nat -> a i i = 0 ->
  succeeds (triangular_matrix_vector_solve ty A t Explicit B X) m (fun _ m' =>
    exists f : nat -> option Z, vec_holds (O := sint_ops w) m' X f /\ f i = None).
Proof. exact trsv_div0. Qed.
Print Assumptions C76_solve_zero_diagonal.
Example C76_solve_zero_diagonal_case :
  succeeds (triangular_matrix_vector_solve I64 (row_major 0 1 1) Lower Explicit (vec_at 1 1) (vec_at 1 1)) (mem_of [si 0; si 5] : mem I32) (fun _ m' =>
    exists f : nat -> option Z, vec_holds (O := I32) m' (vec_at 1 1) f /\ f 0%nat = None).
Proof. apply (C76_solve_zero_diagonal 32 I64 _ (row_major 0 1 1) Lower (vec_at 1 1) (vec_at 1 1) (zmm [[0]]) (zv [5]));
  first [reflexivity | solve [concrete] | split; vm_compute; discriminate | simpl; lia]. Qed.
