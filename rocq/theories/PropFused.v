(** C106: where the data are integers and the sums of magnitudes of the terms have no more digits than the format, floating-point
    results are the exact integers whatever multiply-adds the compiler fuses. *)
From Coq Require Import List Arith ZArith Reals Lia Bool.
From Flocq Require Import Core.Core IEEE754.BinarySingleNaN.
From Verif Require Import Mem Scalar View Spec SpecI SpecSub SpecInp SpecExact SpecFma SpecTrace SpecFused Idx Norm Ieee Fma Trace Blas1 Blas2 Blas3 Wp PfExactI PfFusedI PfFused Inst PropFloat.
Import ListNotations.
Local Open Scope nat_scope.

(** Numbers that are integers surely are. *)
Theorem C106_input : forall prec emax (x : binary_float prec emax) z, int_valued x z -> surely (exactly x) z.
Proof. exact surely_exactly. Qed.
Print Assumptions C106_input.
(** What arithmetic without contraction, or with contraction chosen place by place, computes is among the possible values (C91, C99): the integer. *)
Theorem C106_plain : forall prec emax (x : binary_float prec emax) a z, may_be x a -> surely a z -> int_valued x z.
Proof. exact surely_plain. Qed.
Print Assumptions C106_plain.
Theorem C106_traced : forall prec emax (x : traced prec emax) a z, may_be_traced x a -> surely a z -> int_valued (value x) z.
Proof. exact surely_traced. Qed.
Print Assumptions C106_traced.
(** A fused multiply-add of integers is exact even where the product alone is not. *)
Theorem C106_fma : forall prec emax (Hp : FLX.Prec_gt_0 prec) (He : Prec_lt_emax prec emax) (x y s : binary_float prec emax) z w v,
  int_valued x z -> int_valued y w -> int_valued s v -> fits_in prec (Z.abs (z * w + v)) -> int_valued (Bfma mode_NE x y s) (z * w + v).
Proof. exact int_fma. Qed.
Print Assumptions C106_fma.
Ltac small := apply norm_int; vm_compute; discriminate.
Example C106_input_case : surely (exactly (fl (-7) 0)) (-7).
Proof. apply C106_input. small. Qed.
Example C106_plain_case : int_valued (fl (-7) 0) (-7).
Proof. apply (C106_plain 53 1024 (fl (-7) 0) (exactly (fl (-7) 0))); [reflexivity|apply C106_input_case]. Qed.
Example C106_traced_case : int_valued (value (input 3 (fl (-7) 0))) (-7).
Proof. apply (C106_traced 53 1024 (input 3 (fl (-7) 0)) (exactly (fl (-7) 0))); [split; [reflexivity|discriminate]|apply C106_input_case]. Qed.
Example C106_fma_case : int_valued (Bfma mode_NE (fl (2 ^ 27 + 1) 0 : binary64) (fl (2 ^ 26 + 1) 0 : binary64) (fl (- 2 ^ 53) 0 : binary64)) 201326593.
Proof. apply (C106_fma 53 1024 prec53 emax1024 (fl (2 ^ 27 + 1) 0) (fl (2 ^ 26 + 1) 0) (fl (- 2 ^ 53) 0) (2 ^ 27 + 1) (2 ^ 26 + 1) (- 2 ^ 53)); [small|small|small|vm_compute; discriminate]. Qed.

Notation FM := (fma_ops 53 1024 prec53 emax1024).
(** Used below, in binary64: A = [2 -7; -5 3], B = [6 -1; 1 4], x = (-1, 3), y = (4, -5), w = (2, -6), C = [1 -2; 3 -4], D = 0; symmetric and
    triangular matrices are given by the lower triangle of A. *)
Definition fused_mem : mem FM := (* test data *)
  mem_of (map exactly [fl (2) 0; fl (-7) 0; fl (-5) 0; fl (3) 0; fl (6) 0; fl (-1) 0; fl (1) 0; fl (4) 0; fl (-1) 0; fl (3) 0; fl (4) 0; fl (-5) 0; fl (2) 0; fl (-6) 0; fl (1) 0; fl (-2) 0; fl (3) 0; fl (-4) 0; fl 0 0; fl 0 0; fl 0 0; fl 0 0]).
Definition vp (l : list F64) (i : nat) : poss 53 1024 := exactly (nth i l (fl 0 0)). (* test data *)
Definition mp (l : list (list F64)) (i j : nat) : poss 53 1024 := exactly (nth j (nth i l []) (fl 0 0)). (* test data *)
Definition zv (l : list Z) (i : nat) : Z := nth i l 0%Z. (* test data *)
Definition zm (l : list (list Z)) (i j : nat) : Z := nth j (nth i l []) 0%Z. (* test data *)
Ltac ints := intros; repeat match goal with K : ?k < _ |- _ => simpl in K; destruct k as [|[|k]]; [| |exfalso; clear - K; lia]; clear K end;
  first [exfalso; match goal with K : in_tri _ _ _ |- _ => simpl in K; clear - K; lia | K : stored _ _ _ _ |- _ => destruct K as [K _]; simpl in K; clear - K; lia end | apply C106_input; small].
Ltac conc := unfold fused_mem;
  match goal with
  | |- surely _ _ => apply C106_input; small
  | |- symmetric_z _ => intros [|[|i]] [|[|j]]; try reflexivity; unfold zm; simpl; try destruct i; try destruct j; reflexivity
  | |- triangular_z _ _ _ => split; [intros [|[|i]] [|[|j]] K; try reflexivity; try (exfalso; apply K; simpl; lia);
        unfold zm; simpl; try destruct i; try destruct j; try reflexivity; exfalso; apply K; simpl; lia|intros; discriminate]
  | |- forall i, i < _ -> surely _ _ => ints
  | |- forall i j, i < _ -> j < _ -> _ => ints
  | _ => concrete; try solve [intros; reflexivity | vm_compute; split; discriminate | discriminate | intros; discriminate]
  end.

(** x = alpha x *)
Theorem C106_scale : forall prec emax (Hp : FLX.Prec_gt_0 prec) (He : Prec_lt_emax prec emax) (m : mem (fma_ops prec emax Hp He)) (alpha : fma_ops prec emax Hp He) x f (q : nat -> Z) (al : Z),
  vec_holds m x f -> vwritable x ->
  (forall i, i < vext x -> surely (f i) (q i)) ->
  surely alpha al ->
  succeeds (scale_1 alpha x) m (fun _ m' => exists r, vec_holds m' x r /\ forall i, i < vext x ->
    fits_in prec (Z.abs (q i * al))%Z -> surely (r i) (q i * al)%Z).
Proof. exact scale_fused. Qed.
Print Assumptions C106_scale.
Example C106_scale_case : succeeds (scale_1 (exactly (fl (-3) 0) : FM) (vec_at 8 2)) fused_mem (fun _ m' => exists r, vec_holds m' (vec_at 8 2) r /\ surely (r 1 : poss 53 1024) (-9)).
Proof.
  eapply wp_conseq; [apply (C106_scale 53 1024 prec53 emax1024 fused_mem (exactly (fl (-3) 0)) (vec_at 8 2) (vp [fl (-1) 0; fl (3) 0]) (zv [(-1)%Z; (3)%Z]) (-3)%Z); conc|].
  intros u m' (r & K1 & K2). exists r. split; [exact K1|]. apply (K2 1); [simpl; lia|vm_compute; discriminate].
Qed.

(** the same for a matrix *)
Theorem C106_scale_2 : forall prec emax (Hp : FLX.Prec_gt_0 prec) (He : Prec_lt_emax prec emax) (m : mem (fma_ops prec emax Hp He)) (alpha : fma_ops prec emax Hp He) x f (q : nat -> nat -> Z) (al : Z),
  mat_holds m x f -> mwritable x ->
  (forall i j, i < ext0 x -> j < ext1 x -> surely (f i j) (q i j)) ->
  surely alpha al ->
  succeeds (scale_2 alpha x) m (fun _ m' => exists r, mat_holds m' x r /\ forall i j, i < ext0 x -> j < ext1 x ->
    fits_in prec (Z.abs (q i j * al))%Z -> surely (r i j) (q i j * al)%Z).
Proof. exact scale_2_fused. Qed.
Print Assumptions C106_scale_2.
Example C106_scale_2_case : succeeds (scale_2 (exactly (fl (-3) 0) : FM) (row_major 4 2 2)) fused_mem (fun _ m' => exists r, mat_holds m' (row_major 4 2 2) r /\ surely (r 1 0 : poss 53 1024) (-3)).
Proof.
  eapply wp_conseq; [apply (C106_scale_2 53 1024 prec53 emax1024 fused_mem (exactly (fl (-3) 0)) (row_major 4 2 2) (mp [[fl (6) 0; fl (-1) 0]; [fl (1) 0; fl (4) 0]]) (zm [[(6)%Z; (-1)%Z]; [(1)%Z; (4)%Z]]) (-3)%Z); conc|].
  intros u m' (r & K1 & K2). exists r. split; [exact K1|]. apply (K2 1 0); [simpl; lia|simpl; lia|vm_compute; discriminate].
Qed.

(** z = x + y *)
Theorem C106_add : forall prec emax (Hp : FLX.Prec_gt_0 prec) (He : Prec_lt_emax prec emax) (m : mem (fma_ops prec emax Hp He)) x y z f g (q : nat -> Z) (s : nat -> Z),
  vext x = vext z -> vext y = vext z -> vec_holds m x f -> vec_holds m y g ->
  vwritable z -> allocated m (vcells z) -> disjoint_or_aligned_v x z -> disjoint_or_aligned_v y z ->
  (forall i, i < vext x -> surely (f i) (q i)) ->
  (forall i, i < vext y -> surely (g i) (s i)) ->
  succeeds (add_1 x y z) m (fun _ m' => exists r, vec_holds m' z r /\ forall i, i < vext z ->
    fits_in prec (Z.abs (q i) + Z.abs (s i))%Z -> surely (r i) (q i + s i)%Z).
Proof. exact add_fused. Qed.
Print Assumptions C106_add.
Example C106_add_case : succeeds (add_1 (vec_at 8 2) (vec_at 12 2) (vec_at 10 2)) fused_mem (fun _ m' => exists r, vec_holds m' (vec_at 10 2) r /\ surely (r 1 : poss 53 1024) (-3)).
Proof.
  eapply wp_conseq; [apply (C106_add 53 1024 prec53 emax1024 fused_mem (vec_at 8 2) (vec_at 12 2) (vec_at 10 2) (vp [fl (-1) 0; fl (3) 0]) (vp [fl (2) 0; fl (-6) 0]) (zv [(-1)%Z; (3)%Z]) (zv [(2)%Z; (-6)%Z])); conc|].
  intros u m' (r & K1 & K2). exists r. split; [exact K1|]. apply (K2 1); [simpl; lia|vm_compute; discriminate].
Qed.

(** the same for matrices *)
Theorem C106_add_2 : forall prec emax (Hp : FLX.Prec_gt_0 prec) (He : Prec_lt_emax prec emax) (m : mem (fma_ops prec emax Hp He)) x y z f g (q : nat -> nat -> Z) (s : nat -> nat -> Z),
  ext0 x = ext0 z -> ext1 x = ext1 z -> ext0 y = ext0 z -> ext1 y = ext1 z ->
  mat_holds m x f -> mat_holds m y g ->
  mwritable z -> allocated m (mcells z) -> disjoint_or_aligned_m x z -> disjoint_or_aligned_m y z ->
  (forall i j, i < ext0 x -> j < ext1 x -> surely (f i j) (q i j)) ->
  (forall i j, i < ext0 y -> j < ext1 y -> surely (g i j) (s i j)) ->
  succeeds (add_2 x y z) m (fun _ m' => exists r, mat_holds m' z r /\ forall i j, i < ext0 z -> j < ext1 z ->
    fits_in prec (Z.abs (q i j) + Z.abs (s i j))%Z -> surely (r i j) (q i j + s i j)%Z).
Proof. exact add_2_fused. Qed.
Print Assumptions C106_add_2.
Example C106_add_2_case : succeeds (add_2 (row_major 0 2 2) (row_major 4 2 2) (row_major 14 2 2)) fused_mem (fun _ m' => exists r, mat_holds m' (row_major 14 2 2) r /\ surely (r 1 0 : poss 53 1024) (-4)).
Proof.
  eapply wp_conseq; [apply (C106_add_2 53 1024 prec53 emax1024 fused_mem (row_major 0 2 2) (row_major 4 2 2) (row_major 14 2 2) (mp [[fl (2) 0; fl (-7) 0]; [fl (-5) 0; fl (3) 0]]) (mp [[fl (6) 0; fl (-1) 0]; [fl (1) 0; fl (4) 0]]) (zm [[(2)%Z; (-7)%Z]; [(-5)%Z; (3)%Z]]) (zm [[(6)%Z; (-1)%Z]; [(1)%Z; (4)%Z]])); conc|].
  intros u m' (r & K1 & K2). exists r. split; [exact K1|]. apply (K2 1 0); [simpl; lia|simpl; lia|vm_compute; discriminate].
Qed.

(** init + sum x_i y_i *)
Theorem C106_dot : forall prec emax (Hp : FLX.Prec_gt_0 prec) (He : Prec_lt_emax prec emax) (m : mem (fma_ops prec emax Hp He)) x y f g (init : fma_ops prec emax Hp He) (q : nat -> Z) (s : nat -> Z) (z0 : Z),
  vext x = vext y -> vec_holds m x f -> vec_holds m y g ->
  (forall i, i < vext x -> surely (f i) (q i)) ->
  (forall i, i < vext y -> surely (g i) (s i)) ->
  surely init z0 ->
  succeeds (dot x y init) m (fun r _ => fits_in prec (Z.abs (z0) + zsum (vext x) (fun k => Z.abs (q k * s k)))%Z -> surely r (z0 + zsum (vext x) (fun k => q k * s k))%Z).
Proof. exact dot_fused. Qed.
Print Assumptions C106_dot.
Example C106_dot_case : succeeds (dot (vec_at 8 2) (vec_at 12 2) (exactly (fl (-1) 0) : FM)) fused_mem (fun r _ => surely (r : poss 53 1024) (-21)).
Proof.
  eapply wp_conseq; [apply (C106_dot 53 1024 prec53 emax1024 fused_mem (vec_at 8 2) (vec_at 12 2) (vp [fl (-1) 0; fl (3) 0]) (vp [fl (2) 0; fl (-6) 0]) (exactly (fl (-1) 0)) (zv [(-1)%Z; (3)%Z]) (zv [(2)%Z; (-6)%Z]) (-1)%Z); conc|].
  intros r m' K. apply K. vm_compute. discriminate.
Qed.

(** init + sum conj(x_i) y_i *)
Theorem C106_dotc : forall prec emax (Hp : FLX.Prec_gt_0 prec) (He : Prec_lt_emax prec emax) (m : mem (fma_ops prec emax Hp He)) fix_nc nc x y f g (init : fma_ops prec emax Hp He) (q : nat -> Z) (s : nat -> Z) (z0 : Z),
  vext x = vext y -> vec_holds m x f -> vec_holds m y g ->
  (forall i, i < vext x -> surely (f i) (q i)) ->
  (forall i, i < vext y -> surely (g i) (s i)) ->
  surely init z0 ->
  succeeds (dotc fix_nc nc x y init) m (fun r _ => fits_in prec (Z.abs (z0) + zsum (vext x) (fun k => Z.abs (q k * s k)))%Z -> surely r (z0 + zsum (vext x) (fun k => q k * s k))%Z).
Proof. exact dotc_fused. Qed.
Print Assumptions C106_dotc.
Example C106_dotc_case : succeeds (dotc true true (vec_at 8 2) (vec_at 12 2) (exactly (fl (-1) 0) : FM)) fused_mem (fun r _ => surely (r : poss 53 1024) (-21)).
Proof.
  eapply wp_conseq; [apply (C106_dotc 53 1024 prec53 emax1024 fused_mem true true (vec_at 8 2) (vec_at 12 2) (vp [fl (-1) 0; fl (3) 0]) (vp [fl (2) 0; fl (-6) 0]) (exactly (fl (-1) 0)) (zv [(-1)%Z; (3)%Z]) (zv [(2)%Z; (-6)%Z]) (-1)%Z); conc|].
  intros r m' K. apply K. vm_compute. discriminate.
Qed.

(** y = A x *)
Theorem C106_gemv : forall prec emax (Hp : FLX.Prec_gt_0 prec) (He : Prec_lt_emax prec emax) (m : mem (fma_ops prec emax Hp He)) A x y a f (q : nat -> Z) (p : nat -> nat -> Z),
  vext x = ext1 A -> vext y = ext0 A ->
  mat_holds m A a -> vec_holds m x f -> vwritable y -> allocated m (vcells y) ->
  disjoint (mcells A) (vcells y) -> disjoint (vcells x) (vcells y) ->
  (forall i, i < vext x -> surely (f i) (q i)) ->
  (forall i j, i < ext0 A -> j < ext1 A -> surely (a i j) (p i j)) ->
  succeeds (matrix_vector_product A x y) m (fun _ m' => exists r, vec_holds m' y r /\ forall i, i < vext y ->
    fits_in prec (zsum (ext1 A) (fun k => Z.abs (p i k * q k)))%Z -> surely (r i) (zsum (ext1 A) (fun k => p i k * q k))%Z).
Proof. exact gemv_fused. Qed.
Print Assumptions C106_gemv.
Example C106_gemv_case : succeeds (matrix_vector_product (row_major 0 2 2) (vec_at 8 2) (vec_at 10 2)) fused_mem (fun _ m' => exists r, vec_holds m' (vec_at 10 2) r /\ surely (r 1 : poss 53 1024) (14)).
Proof.
  eapply wp_conseq; [apply (C106_gemv 53 1024 prec53 emax1024 fused_mem (row_major 0 2 2) (vec_at 8 2) (vec_at 10 2) (mp [[fl (2) 0; fl (-7) 0]; [fl (-5) 0; fl (3) 0]]) (vp [fl (-1) 0; fl (3) 0]) (zv [(-1)%Z; (3)%Z]) (zm [[(2)%Z; (-7)%Z]; [(-5)%Z; (3)%Z]])); conc|].
  intros u m' (r & K1 & K2). exists r. split; [exact K1|]. apply (K2 1); [simpl; lia|vm_compute; discriminate].
Qed.

(** z = y + A x *)
Theorem C106_gemv_upd : forall prec emax (Hp : FLX.Prec_gt_0 prec) (He : Prec_lt_emax prec emax) (m : mem (fma_ops prec emax Hp He)) A x y z a f g (q : nat -> Z) (s : nat -> Z) (p : nat -> nat -> Z),
  vext x = ext1 A -> vext y = ext0 A -> vext z = ext0 A ->
  mat_holds m A a -> vec_holds m x f -> vec_holds m y g -> vwritable z -> allocated m (vcells z) ->
  disjoint (mcells A) (vcells z) -> disjoint (vcells x) (vcells z) -> disjoint_or_aligned_v y z ->
  (forall i, i < vext x -> surely (f i) (q i)) ->
  (forall i, i < vext y -> surely (g i) (s i)) ->
  (forall i j, i < ext0 A -> j < ext1 A -> surely (a i j) (p i j)) ->
  succeeds (matrix_vector_product_upd A x y z) m (fun _ m' => exists r, vec_holds m' z r /\ forall i, i < vext z ->
    fits_in prec (Z.abs (s i) + zsum (ext1 A) (fun k => Z.abs (p i k * q k)))%Z -> surely (r i) (s i + zsum (ext1 A) (fun k => p i k * q k))%Z).
Proof. exact gemv_upd_fused. Qed.
Print Assumptions C106_gemv_upd.
Example C106_gemv_upd_case : succeeds (matrix_vector_product_upd (row_major 0 2 2) (vec_at 8 2) (vec_at 10 2) (vec_at 12 2)) fused_mem (fun _ m' => exists r, vec_holds m' (vec_at 12 2) r /\ surely (r 1 : poss 53 1024) (9)).
Proof.
  eapply wp_conseq; [apply (C106_gemv_upd 53 1024 prec53 emax1024 fused_mem (row_major 0 2 2) (vec_at 8 2) (vec_at 10 2) (vec_at 12 2) (mp [[fl (2) 0; fl (-7) 0]; [fl (-5) 0; fl (3) 0]]) (vp [fl (-1) 0; fl (3) 0]) (vp [fl (4) 0; fl (-5) 0]) (zv [(-1)%Z; (3)%Z]) (zv [(4)%Z; (-5)%Z]) (zm [[(2)%Z; (-7)%Z]; [(-5)%Z; (3)%Z]])); conc|].
  intros u m' (r & K1 & K2). exists r. split; [exact K1|]. apply (K2 1); [simpl; lia|vm_compute; discriminate].
Qed.

(** y = A x, A symmetric *)
Theorem C106_symv : forall prec emax (Hp : FLX.Prec_gt_0 prec) (He : Prec_lt_emax prec emax) (m : mem (fma_ops prec emax Hp He)) A t x y a f (q : nat -> Z) (p : nat -> nat -> Z),
  ext0 A = ext1 A -> vext x = ext1 A -> vext y = ext0 A ->
  mat_holds_on m A (in_tri t) a -> vec_holds m x f -> vwritable y -> allocated m (vcells y) ->
  disjoint (mcells_on A (in_tri t)) (vcells y) -> disjoint (vcells x) (vcells y) ->
  (forall i, i < vext x -> surely (f i) (q i)) ->
  (forall i j, i < ext0 A -> j < ext1 A -> in_tri t i j -> surely (a i j) (p i j)) ->
  symmetric_z p ->
  succeeds (symmetric_matrix_vector_product A t x y) m (fun _ m' => exists r, vec_holds m' y r /\ forall i, i < vext y ->
    fits_in prec (zsum (ext1 A) (fun k => Z.abs (p i k * q k)))%Z -> surely (r i) (zsum (ext1 A) (fun k => p i k * q k))%Z).
Proof. exact symv_fused. Qed.
Print Assumptions C106_symv.
Example C106_symv_case : succeeds (symmetric_matrix_vector_product (row_major 0 2 2) Lower (vec_at 8 2) (vec_at 10 2)) fused_mem (fun _ m' => exists r, vec_holds m' (vec_at 10 2) r /\ surely (r 1 : poss 53 1024) (14)).
Proof.
  eapply wp_conseq; [apply (C106_symv 53 1024 prec53 emax1024 fused_mem (row_major 0 2 2) Lower (vec_at 8 2) (vec_at 10 2) (mp [[fl (2) 0; fl (-7) 0]; [fl (-5) 0; fl (3) 0]]) (vp [fl (-1) 0; fl (3) 0]) (zv [(-1)%Z; (3)%Z]) (zm [[(2)%Z; (-5)%Z]; [(-5)%Z; (3)%Z]])); conc|].
  intros u m' (r & K1 & K2). exists r. split; [exact K1|]. apply (K2 1); [simpl; lia|vm_compute; discriminate].
Qed.

(** z = y + A x, A symmetric *)
Theorem C106_symv_upd : forall prec emax (Hp : FLX.Prec_gt_0 prec) (He : Prec_lt_emax prec emax) (m : mem (fma_ops prec emax Hp He)) A t x y z a f g (q : nat -> Z) (s : nat -> Z) (p : nat -> nat -> Z),
  ext0 A = ext1 A -> vext x = ext1 A -> vext y = ext0 A -> vext z = ext0 A ->
  mat_holds_on m A (in_tri t) a -> vec_holds m x f -> vec_holds m y g -> vwritable z -> allocated m (vcells z) ->
  disjoint (mcells_on A (in_tri t)) (vcells z) -> disjoint (vcells x) (vcells z) -> disjoint_or_aligned_v y z ->
  (forall i, i < vext x -> surely (f i) (q i)) ->
  (forall i, i < vext y -> surely (g i) (s i)) ->
  (forall i j, i < ext0 A -> j < ext1 A -> in_tri t i j -> surely (a i j) (p i j)) ->
  symmetric_z p ->
  succeeds (symmetric_matrix_vector_product_upd A t x y z) m (fun _ m' => exists r, vec_holds m' z r /\ forall i, i < vext z ->
    fits_in prec (Z.abs (s i) + zsum (ext1 A) (fun k => Z.abs (p i k * q k)))%Z -> surely (r i) (s i + zsum (ext1 A) (fun k => p i k * q k))%Z).
Proof. exact symv_upd_fused. Qed.
Print Assumptions C106_symv_upd.
Example C106_symv_upd_case : succeeds (symmetric_matrix_vector_product_upd (row_major 0 2 2) Lower (vec_at 8 2) (vec_at 10 2) (vec_at 12 2)) fused_mem (fun _ m' => exists r, vec_holds m' (vec_at 12 2) r /\ surely (r 1 : poss 53 1024) (9)).
Proof.
  eapply wp_conseq; [apply (C106_symv_upd 53 1024 prec53 emax1024 fused_mem (row_major 0 2 2) Lower (vec_at 8 2) (vec_at 10 2) (vec_at 12 2) (mp [[fl (2) 0; fl (-7) 0]; [fl (-5) 0; fl (3) 0]]) (vp [fl (-1) 0; fl (3) 0]) (vp [fl (4) 0; fl (-5) 0]) (zv [(-1)%Z; (3)%Z]) (zv [(4)%Z; (-5)%Z]) (zm [[(2)%Z; (-5)%Z]; [(-5)%Z; (3)%Z]])); conc|].
  intros u m' (r & K1 & K2). exists r. split; [exact K1|]. apply (K2 1); [simpl; lia|vm_compute; discriminate].
Qed.

(** y = A x, A Hermitian *)
Theorem C106_hemv : forall prec emax (Hp : FLX.Prec_gt_0 prec) (He : Prec_lt_emax prec emax) (m : mem (fma_ops prec emax Hp He)) A t x y a f (q : nat -> Z) (p : nat -> nat -> Z),
  ext0 A = ext1 A -> vext x = ext1 A -> vext y = ext0 A ->
  mat_holds_on m A (in_tri t) a -> vec_holds m x f -> vwritable y -> allocated m (vcells y) ->
  disjoint (mcells_on A (in_tri t)) (vcells y) -> disjoint (vcells x) (vcells y) ->
  (forall i, i < vext x -> surely (f i) (q i)) ->
  (forall i j, i < ext0 A -> j < ext1 A -> in_tri t i j -> surely (a i j) (p i j)) ->
  symmetric_z p ->
  succeeds (hermitian_matrix_vector_product A t x y) m (fun _ m' => exists r, vec_holds m' y r /\ forall i, i < vext y ->
    fits_in prec (zsum (ext1 A) (fun k => Z.abs (p i k * q k)))%Z -> surely (r i) (zsum (ext1 A) (fun k => p i k * q k))%Z).
Proof. exact hemv_fused. Qed.
Print Assumptions C106_hemv.
Example C106_hemv_case : succeeds (hermitian_matrix_vector_product (row_major 0 2 2) Lower (vec_at 8 2) (vec_at 10 2)) fused_mem (fun _ m' => exists r, vec_holds m' (vec_at 10 2) r /\ surely (r 1 : poss 53 1024) (14)).
Proof.
  eapply wp_conseq; [apply (C106_hemv 53 1024 prec53 emax1024 fused_mem (row_major 0 2 2) Lower (vec_at 8 2) (vec_at 10 2) (mp [[fl (2) 0; fl (-7) 0]; [fl (-5) 0; fl (3) 0]]) (vp [fl (-1) 0; fl (3) 0]) (zv [(-1)%Z; (3)%Z]) (zm [[(2)%Z; (-5)%Z]; [(-5)%Z; (3)%Z]])); conc|].
  intros u m' (r & K1 & K2). exists r. split; [exact K1|]. apply (K2 1); [simpl; lia|vm_compute; discriminate].
Qed.

(** z = y + A x, A Hermitian *)
Theorem C106_hemv_upd : forall prec emax (Hp : FLX.Prec_gt_0 prec) (He : Prec_lt_emax prec emax) (m : mem (fma_ops prec emax Hp He)) A t x y z a f g (q : nat -> Z) (s : nat -> Z) (p : nat -> nat -> Z),
  ext0 A = ext1 A -> vext x = ext1 A -> vext y = ext0 A -> vext z = ext0 A ->
  mat_holds_on m A (in_tri t) a -> vec_holds m x f -> vec_holds m y g -> vwritable z -> allocated m (vcells z) ->
  disjoint (mcells_on A (in_tri t)) (vcells z) -> disjoint (vcells x) (vcells z) -> disjoint_or_aligned_v y z ->
  (forall i, i < vext x -> surely (f i) (q i)) ->
  (forall i, i < vext y -> surely (g i) (s i)) ->
  (forall i j, i < ext0 A -> j < ext1 A -> in_tri t i j -> surely (a i j) (p i j)) ->
  symmetric_z p ->
  succeeds (hermitian_matrix_vector_product_upd A t x y z) m (fun _ m' => exists r, vec_holds m' z r /\ forall i, i < vext z ->
    fits_in prec (Z.abs (s i) + zsum (ext1 A) (fun k => Z.abs (p i k * q k)))%Z -> surely (r i) (s i + zsum (ext1 A) (fun k => p i k * q k))%Z).
Proof. exact hemv_upd_fused. Qed.
Print Assumptions C106_hemv_upd.
Example C106_hemv_upd_case : succeeds (hermitian_matrix_vector_product_upd (row_major 0 2 2) Lower (vec_at 8 2) (vec_at 10 2) (vec_at 12 2)) fused_mem (fun _ m' => exists r, vec_holds m' (vec_at 12 2) r /\ surely (r 1 : poss 53 1024) (9)).
Proof.
  eapply wp_conseq; [apply (C106_hemv_upd 53 1024 prec53 emax1024 fused_mem (row_major 0 2 2) Lower (vec_at 8 2) (vec_at 10 2) (vec_at 12 2) (mp [[fl (2) 0; fl (-7) 0]; [fl (-5) 0; fl (3) 0]]) (vp [fl (-1) 0; fl (3) 0]) (vp [fl (4) 0; fl (-5) 0]) (zv [(-1)%Z; (3)%Z]) (zv [(4)%Z; (-5)%Z]) (zm [[(2)%Z; (-5)%Z]; [(-5)%Z; (3)%Z]])); conc|].
  intros u m' (r & K1 & K2). exists r. split; [exact K1|]. apply (K2 1); [simpl; lia|vm_compute; discriminate].
Qed.

(** y = A x, A triangular *)
Theorem C106_trmv : forall prec emax (Hp : FLX.Prec_gt_0 prec) (He : Prec_lt_emax prec emax) (m : mem (fma_ops prec emax Hp He)) A t d x y a f (q : nat -> Z) (p : nat -> nat -> Z),
  ext0 A = ext1 A -> vext x = ext1 A -> vext y = ext0 A ->
  mat_holds_on m A (stored t d) a -> vec_holds m x f -> vwritable y -> allocated m (vcells y) ->
  disjoint (mcells_on A (stored t d)) (vcells y) -> disjoint (vcells x) (vcells y) ->
  (forall i, i < vext x -> surely (f i) (q i)) ->
  (forall i j, i < ext0 A -> j < ext1 A -> stored t d i j -> surely (a i j) (p i j)) ->
  triangular_z t d p ->
  succeeds (triangular_matrix_vector_product A t d x y) m (fun _ m' => exists r, vec_holds m' y r /\ forall i, i < vext y ->
    fits_in prec (zsum (ext1 A) (fun k => Z.abs (p i k * q k)))%Z -> surely (r i) (zsum (ext1 A) (fun k => p i k * q k))%Z).
Proof. exact trmv_fused. Qed.
Print Assumptions C106_trmv.
Example C106_trmv_case : succeeds (triangular_matrix_vector_product (row_major 0 2 2) Lower Explicit (vec_at 8 2) (vec_at 10 2)) fused_mem (fun _ m' => exists r, vec_holds m' (vec_at 10 2) r /\ surely (r 1 : poss 53 1024) (14)).
Proof.
  eapply wp_conseq; [apply (C106_trmv 53 1024 prec53 emax1024 fused_mem (row_major 0 2 2) Lower Explicit (vec_at 8 2) (vec_at 10 2) (mp [[fl (2) 0; fl (-7) 0]; [fl (-5) 0; fl (3) 0]]) (vp [fl (-1) 0; fl (3) 0]) (zv [(-1)%Z; (3)%Z]) (zm [[(2)%Z; (0)%Z]; [(-5)%Z; (3)%Z]])); conc|].
  intros u m' (r & K1 & K2). exists r. split; [exact K1|]. apply (K2 1); [simpl; lia|vm_compute; discriminate].
Qed.

(** z = y + A x, A triangular *)
Theorem C106_trmv_upd : forall prec emax (Hp : FLX.Prec_gt_0 prec) (He : Prec_lt_emax prec emax) (m : mem (fma_ops prec emax Hp He)) A t d x y z a f g (q : nat -> Z) (s : nat -> Z) (p : nat -> nat -> Z),
  ext0 A = ext1 A -> vext x = ext1 A -> vext y = ext0 A -> vext z = ext0 A ->
  mat_holds_on m A (stored t d) a -> vec_holds m x f -> vec_holds m y g -> vwritable z -> allocated m (vcells z) ->
  disjoint (mcells_on A (stored t d)) (vcells z) -> disjoint (vcells x) (vcells z) -> disjoint_or_aligned_v y z ->
  (forall i, i < vext x -> surely (f i) (q i)) ->
  (forall i, i < vext y -> surely (g i) (s i)) ->
  (forall i j, i < ext0 A -> j < ext1 A -> stored t d i j -> surely (a i j) (p i j)) ->
  triangular_z t d p ->
  succeeds (triangular_matrix_vector_product_upd A t d x y z) m (fun _ m' => exists r, vec_holds m' z r /\ forall i, i < vext z ->
    fits_in prec (Z.abs (s i) + zsum (ext1 A) (fun k => Z.abs (p i k * q k)))%Z -> surely (r i) (s i + zsum (ext1 A) (fun k => p i k * q k))%Z).
Proof. exact trmv_upd_fused. Qed.
Print Assumptions C106_trmv_upd.
Example C106_trmv_upd_case : succeeds (triangular_matrix_vector_product_upd (row_major 0 2 2) Lower Explicit (vec_at 8 2) (vec_at 10 2) (vec_at 12 2)) fused_mem (fun _ m' => exists r, vec_holds m' (vec_at 12 2) r /\ surely (r 1 : poss 53 1024) (9)).
Proof.
  eapply wp_conseq; [apply (C106_trmv_upd 53 1024 prec53 emax1024 fused_mem (row_major 0 2 2) Lower Explicit (vec_at 8 2) (vec_at 10 2) (vec_at 12 2) (mp [[fl (2) 0; fl (-7) 0]; [fl (-5) 0; fl (3) 0]]) (vp [fl (-1) 0; fl (3) 0]) (vp [fl (4) 0; fl (-5) 0]) (zv [(-1)%Z; (3)%Z]) (zv [(4)%Z; (-5)%Z]) (zm [[(2)%Z; (0)%Z]; [(-5)%Z; (3)%Z]])); conc|].
  intros u m' (r & K1 & K2). exists r. split; [exact K1|]. apply (K2 1); [simpl; lia|vm_compute; discriminate].
Qed.

(** y = A y, A triangular *)
Theorem C106_trmv_inplace : forall prec emax (Hp : FLX.Prec_gt_0 prec) (He : Prec_lt_emax prec emax) (m : mem (fma_ops prec emax Hp He)) A t d y a f (q : nat -> Z) (p : nat -> nat -> Z),
  ext0 A = ext1 A -> vext y = ext0 A ->
  mat_holds_on m A (stored t d) a -> vec_holds m y f -> vwritable y ->
  disjoint (mcells_on A (stored t d)) (vcells y) ->
  (forall i, i < vext y -> surely (f i) (q i)) ->
  (forall i j, i < ext0 A -> j < ext1 A -> stored t d i j -> surely (a i j) (p i j)) ->
  triangular_z t d p ->
  succeeds (triangular_matrix_vector_product_inplace A t d y) m (fun _ m' => exists r, vec_holds m' y r /\ forall i, i < vext y ->
    fits_in prec (zsum (ext1 A) (fun k => Z.abs (p i k * q k)))%Z -> surely (r i) (zsum (ext1 A) (fun k => p i k * q k))%Z).
Proof. exact trmv_inplace_fused. Qed.
Print Assumptions C106_trmv_inplace.
Example C106_trmv_inplace_case : succeeds (triangular_matrix_vector_product_inplace (row_major 0 2 2) Lower Explicit (vec_at 8 2)) fused_mem (fun _ m' => exists r, vec_holds m' (vec_at 8 2) r /\ surely (r 1 : poss 53 1024) (14)).
Proof.
  eapply wp_conseq; [apply (C106_trmv_inplace 53 1024 prec53 emax1024 fused_mem (row_major 0 2 2) Lower Explicit (vec_at 8 2) (mp [[fl (2) 0; fl (-7) 0]; [fl (-5) 0; fl (3) 0]]) (vp [fl (-1) 0; fl (3) 0]) (zv [(-1)%Z; (3)%Z]) (zm [[(2)%Z; (0)%Z]; [(-5)%Z; (3)%Z]])); conc|].
  intros u m' (r & K1 & K2). exists r. split; [exact K1|]. apply (K2 1); [simpl; lia|vm_compute; discriminate].
Qed.

(** A += x y^T *)
Theorem C106_ger : forall prec emax (Hp : FLX.Prec_gt_0 prec) (He : Prec_lt_emax prec emax) (m : mem (fma_ops prec emax Hp He)) x y A a f g (q : nat -> Z) (s : nat -> Z) (p : nat -> nat -> Z),
  vext x = ext0 A -> vext y = ext1 A ->
  mat_holds m A a -> vec_holds m x f -> vec_holds m y g -> mwritable A ->
  disjoint (vcells x) (mcells A) -> disjoint (vcells y) (mcells A) ->
  (forall i, i < vext x -> surely (f i) (q i)) ->
  (forall i, i < vext y -> surely (g i) (s i)) ->
  (forall i j, i < ext0 A -> j < ext1 A -> surely (a i j) (p i j)) ->
  succeeds (matrix_rank_1_update x y A) m (fun _ m' => exists r, mat_holds m' A r /\ forall i j, i < ext0 A -> j < ext1 A ->
    fits_in prec (Z.abs (p i j) + Z.abs (q i * s j))%Z -> surely (r i j) (p i j + q i * s j)%Z).
Proof. exact ger_fused. Qed.
Print Assumptions C106_ger.
Example C106_ger_case : succeeds (matrix_rank_1_update (vec_at 8 2) (vec_at 12 2) (row_major 14 2 2)) fused_mem (fun _ m' => exists r, mat_holds m' (row_major 14 2 2) r /\ surely (r 1 0 : poss 53 1024) (9)).
Proof.
  eapply wp_conseq; [apply (C106_ger 53 1024 prec53 emax1024 fused_mem (vec_at 8 2) (vec_at 12 2) (row_major 14 2 2) (mp [[fl (1) 0; fl (-2) 0]; [fl (3) 0; fl (-4) 0]]) (vp [fl (-1) 0; fl (3) 0]) (vp [fl (2) 0; fl (-6) 0]) (zv [(-1)%Z; (3)%Z]) (zv [(2)%Z; (-6)%Z]) (zm [[(1)%Z; (-2)%Z]; [(3)%Z; (-4)%Z]])); conc|].
  intros u m' (r & K1 & K2). exists r. split; [exact K1|]. apply (K2 1 0); [simpl; lia|simpl; lia|vm_compute; discriminate].
Qed.

(** A += x y^H *)
Theorem C106_gerc : forall prec emax (Hp : FLX.Prec_gt_0 prec) (He : Prec_lt_emax prec emax) (m : mem (fma_ops prec emax Hp He)) fix_nc nc x y A a f g (q : nat -> Z) (s : nat -> Z) (p : nat -> nat -> Z),
  vext x = ext0 A -> vext y = ext1 A ->
  mat_holds m A a -> vec_holds m x f -> vec_holds m y g -> mwritable A ->
  disjoint (vcells x) (mcells A) -> disjoint (vcells y) (mcells A) ->
  (forall i, i < vext x -> surely (f i) (q i)) ->
  (forall i, i < vext y -> surely (g i) (s i)) ->
  (forall i j, i < ext0 A -> j < ext1 A -> surely (a i j) (p i j)) ->
  succeeds (matrix_rank_1_update_c fix_nc nc x y A) m (fun _ m' => exists r, mat_holds m' A r /\ forall i j, i < ext0 A -> j < ext1 A ->
    fits_in prec (Z.abs (p i j) + Z.abs (q i * s j))%Z -> surely (r i j) (p i j + q i * s j)%Z).
Proof. exact gerc_fused. Qed.
Print Assumptions C106_gerc.
Example C106_gerc_case : succeeds (matrix_rank_1_update_c true true (vec_at 8 2) (vec_at 12 2) (row_major 14 2 2)) fused_mem (fun _ m' => exists r, mat_holds m' (row_major 14 2 2) r /\ surely (r 1 0 : poss 53 1024) (9)).
Proof.
  eapply wp_conseq; [apply (C106_gerc 53 1024 prec53 emax1024 fused_mem true true (vec_at 8 2) (vec_at 12 2) (row_major 14 2 2) (mp [[fl (1) 0; fl (-2) 0]; [fl (3) 0; fl (-4) 0]]) (vp [fl (-1) 0; fl (3) 0]) (vp [fl (2) 0; fl (-6) 0]) (zv [(-1)%Z; (3)%Z]) (zv [(2)%Z; (-6)%Z]) (zm [[(1)%Z; (-2)%Z]; [(3)%Z; (-4)%Z]])); conc|].
  intros u m' (r & K1 & K2). exists r. split; [exact K1|]. apply (K2 1 0); [simpl; lia|simpl; lia|vm_compute; discriminate].
Qed.

(** A += x x^T on one triangle *)
Theorem C106_syr : forall prec emax (Hp : FLX.Prec_gt_0 prec) (He : Prec_lt_emax prec emax) (m : mem (fma_ops prec emax Hp He)) x A t a f (q : nat -> Z) (p : nat -> nat -> Z),
  ext0 A = ext1 A -> vext x = ext0 A ->
  mat_holds_on m A (in_tri t) a -> vec_holds m x f -> mwritable_on A (in_tri t) ->
  disjoint (vcells x) (mcells_on A (in_tri t)) ->
  (forall i, i < vext x -> surely (f i) (q i)) ->
  (forall i j, i < ext0 A -> j < ext1 A -> in_tri t i j -> surely (a i j) (p i j)) ->
  succeeds (symmetric_matrix_rank_1_update x A t) m (fun _ m' => exists r, mat_holds_on m' A (in_tri t) r /\ forall i j, i < ext0 A -> j < ext1 A -> in_tri t i j ->
    fits_in prec (Z.abs (p i j) + Z.abs (q i * q j))%Z -> surely (r i j) (p i j + q i * q j)%Z).
Proof. exact syr_fused. Qed.
Print Assumptions C106_syr.
Example C106_syr_case : succeeds (symmetric_matrix_rank_1_update (vec_at 12 2) (row_major 14 2 2) Lower) fused_mem (fun _ m' => exists r, mat_holds_on m' (row_major 14 2 2) (in_tri Lower) r /\ surely (r 1 0 : poss 53 1024) (-9)).
Proof.
  eapply wp_conseq; [apply (C106_syr 53 1024 prec53 emax1024 fused_mem (vec_at 12 2) (row_major 14 2 2) Lower (mp [[fl (1) 0; fl (-2) 0]; [fl (3) 0; fl (-4) 0]]) (vp [fl (2) 0; fl (-6) 0]) (zv [(2)%Z; (-6)%Z]) (zm [[(1)%Z; (-2)%Z]; [(3)%Z; (-4)%Z]])); conc|].
  intros u m' (r & K1 & K2). exists r. split; [exact K1|]. apply (K2 1 0); [simpl; lia|simpl; lia|simpl; lia|vm_compute; discriminate].
Qed.

(** A += x y^T + y x^T on one triangle *)
Theorem C106_syr2 : forall prec emax (Hp : FLX.Prec_gt_0 prec) (He : Prec_lt_emax prec emax) (m : mem (fma_ops prec emax Hp He)) x y A t a f g (q : nat -> Z) (s : nat -> Z) (p : nat -> nat -> Z),
  ext0 A = ext1 A -> vext x = ext0 A -> vext y = ext0 A ->
  mat_holds_on m A (in_tri t) a -> vec_holds m x f -> vec_holds m y g -> mwritable_on A (in_tri t) ->
  disjoint (vcells x) (mcells_on A (in_tri t)) -> disjoint (vcells y) (mcells_on A (in_tri t)) ->
  (forall i, i < vext x -> surely (f i) (q i)) ->
  (forall i, i < vext y -> surely (g i) (s i)) ->
  (forall i j, i < ext0 A -> j < ext1 A -> in_tri t i j -> surely (a i j) (p i j)) ->
  succeeds (symmetric_matrix_rank_2_update x y A t) m (fun _ m' => exists r, mat_holds_on m' A (in_tri t) r /\ forall i j, i < ext0 A -> j < ext1 A -> in_tri t i j ->
    fits_in prec (Z.abs (p i j) + (Z.abs (q i * s j) + Z.abs (s i * q j)))%Z -> surely (r i j) (p i j + (q i * s j + s i * q j))%Z).
Proof. exact syr2_fused. Qed.
Print Assumptions C106_syr2.
Example C106_syr2_case : succeeds (symmetric_matrix_rank_2_update (vec_at 8 2) (vec_at 12 2) (row_major 14 2 2) Lower) fused_mem (fun _ m' => exists r, mat_holds_on m' (row_major 14 2 2) (in_tri Lower) r /\ surely (r 1 0 : poss 53 1024) (15)).
Proof.
  eapply wp_conseq; [apply (C106_syr2 53 1024 prec53 emax1024 fused_mem (vec_at 8 2) (vec_at 12 2) (row_major 14 2 2) Lower (mp [[fl (1) 0; fl (-2) 0]; [fl (3) 0; fl (-4) 0]]) (vp [fl (-1) 0; fl (3) 0]) (vp [fl (2) 0; fl (-6) 0]) (zv [(-1)%Z; (3)%Z]) (zv [(2)%Z; (-6)%Z]) (zm [[(1)%Z; (-2)%Z]; [(3)%Z; (-4)%Z]])); conc|].
  intros u m' (r & K1 & K2). exists r. split; [exact K1|]. apply (K2 1 0); [simpl; lia|simpl; lia|simpl; lia|vm_compute; discriminate].
Qed.

(** A += x x^H on one triangle *)
Theorem C106_her : forall prec emax (Hp : FLX.Prec_gt_0 prec) (He : Prec_lt_emax prec emax) (m : mem (fma_ops prec emax Hp He)) x A t a f (q : nat -> Z) (p : nat -> nat -> Z),
  ext0 A = ext1 A -> vext x = ext0 A ->
  mat_holds_on m A (in_tri t) a -> vec_holds m x f -> mwritable_on A (in_tri t) ->
  disjoint (vcells x) (mcells_on A (in_tri t)) ->
  (forall i, i < vext x -> surely (f i) (q i)) ->
  (forall i j, i < ext0 A -> j < ext1 A -> in_tri t i j -> surely (a i j) (p i j)) ->
  succeeds (hermitian_matrix_rank_1_update x A t) m (fun _ m' => exists r, mat_holds_on m' A (in_tri t) r /\ forall i j, i < ext0 A -> j < ext1 A -> in_tri t i j ->
    fits_in prec (Z.abs (p i j) + Z.abs (q i * q j))%Z -> surely (r i j) (p i j + q i * q j)%Z).
Proof. exact her_fused. Qed.
Print Assumptions C106_her.
Example C106_her_case : succeeds (hermitian_matrix_rank_1_update (vec_at 12 2) (row_major 14 2 2) Lower) fused_mem (fun _ m' => exists r, mat_holds_on m' (row_major 14 2 2) (in_tri Lower) r /\ surely (r 1 0 : poss 53 1024) (-9)).
Proof.
  eapply wp_conseq; [apply (C106_her 53 1024 prec53 emax1024 fused_mem (vec_at 12 2) (row_major 14 2 2) Lower (mp [[fl (1) 0; fl (-2) 0]; [fl (3) 0; fl (-4) 0]]) (vp [fl (2) 0; fl (-6) 0]) (zv [(2)%Z; (-6)%Z]) (zm [[(1)%Z; (-2)%Z]; [(3)%Z; (-4)%Z]])); conc|].
  intros u m' (r & K1 & K2). exists r. split; [exact K1|]. apply (K2 1 0); [simpl; lia|simpl; lia|simpl; lia|vm_compute; discriminate].
Qed.

(** A += x y^H + y x^H on one triangle *)
Theorem C106_her2 : forall prec emax (Hp : FLX.Prec_gt_0 prec) (He : Prec_lt_emax prec emax) (m : mem (fma_ops prec emax Hp He)) x y A t a f g (q : nat -> Z) (s : nat -> Z) (p : nat -> nat -> Z),
  ext0 A = ext1 A -> vext x = ext0 A -> vext y = ext0 A ->
  mat_holds_on m A (in_tri t) a -> vec_holds m x f -> vec_holds m y g -> mwritable_on A (in_tri t) ->
  disjoint (vcells x) (mcells_on A (in_tri t)) -> disjoint (vcells y) (mcells_on A (in_tri t)) ->
  (forall i, i < vext x -> surely (f i) (q i)) ->
  (forall i, i < vext y -> surely (g i) (s i)) ->
  (forall i j, i < ext0 A -> j < ext1 A -> in_tri t i j -> surely (a i j) (p i j)) ->
  succeeds (hermitian_matrix_rank_2_update x y A t) m (fun _ m' => exists r, mat_holds_on m' A (in_tri t) r /\ forall i j, i < ext0 A -> j < ext1 A -> in_tri t i j ->
    fits_in prec (Z.abs (p i j) + (Z.abs (q i * s j) + Z.abs (s i * q j)))%Z -> surely (r i j) (p i j + (q i * s j + s i * q j))%Z).
Proof. exact her2_fused. Qed.
Print Assumptions C106_her2.
Example C106_her2_case : succeeds (hermitian_matrix_rank_2_update (vec_at 8 2) (vec_at 12 2) (row_major 14 2 2) Lower) fused_mem (fun _ m' => exists r, mat_holds_on m' (row_major 14 2 2) (in_tri Lower) r /\ surely (r 1 0 : poss 53 1024) (15)).
Proof.
  eapply wp_conseq; [apply (C106_her2 53 1024 prec53 emax1024 fused_mem (vec_at 8 2) (vec_at 12 2) (row_major 14 2 2) Lower (mp [[fl (1) 0; fl (-2) 0]; [fl (3) 0; fl (-4) 0]]) (vp [fl (-1) 0; fl (3) 0]) (vp [fl (2) 0; fl (-6) 0]) (zv [(-1)%Z; (3)%Z]) (zv [(2)%Z; (-6)%Z]) (zm [[(1)%Z; (-2)%Z]; [(3)%Z; (-4)%Z]])); conc|].
  intros u m' (r & K1 & K2). exists r. split; [exact K1|]. apply (K2 1 0); [simpl; lia|simpl; lia|simpl; lia|vm_compute; discriminate].
Qed.

(** C = A B *)
Theorem C106_gemm : forall prec emax (Hp : FLX.Prec_gt_0 prec) (He : Prec_lt_emax prec emax) (m : mem (fma_ops prec emax Hp He)) A B C a b (p : nat -> nat -> Z) (u : nat -> nat -> Z),
  ext0 C = ext0 A -> ext1 A = ext0 B -> ext1 C = ext1 B ->
  mat_holds m A a -> mat_holds m B b -> mwritable C -> allocated m (mcells C) ->
  disjoint (mcells A) (mcells C) -> disjoint (mcells B) (mcells C) ->
  (forall i j, i < ext0 A -> j < ext1 A -> surely (a i j) (p i j)) ->
  (forall i j, i < ext0 B -> j < ext1 B -> surely (b i j) (u i j)) ->
  succeeds (matrix_product A B C) m (fun _ m' => exists r, mat_holds m' C r /\ forall i j, i < ext0 C -> j < ext1 C ->
    fits_in prec (zsum (ext1 A) (fun k => Z.abs (p i k * u k j)))%Z -> surely (r i j) (zsum (ext1 A) (fun k => p i k * u k j))%Z).
Proof. exact gemm_fused. Qed.
Print Assumptions C106_gemm.
Example C106_gemm_case : succeeds (matrix_product (row_major 0 2 2) (row_major 4 2 2) (row_major 14 2 2)) fused_mem (fun _ m' => exists r, mat_holds m' (row_major 14 2 2) r /\ surely (r 1 0 : poss 53 1024) (-27)).
Proof.
  eapply wp_conseq; [apply (C106_gemm 53 1024 prec53 emax1024 fused_mem (row_major 0 2 2) (row_major 4 2 2) (row_major 14 2 2) (mp [[fl (2) 0; fl (-7) 0]; [fl (-5) 0; fl (3) 0]]) (mp [[fl (6) 0; fl (-1) 0]; [fl (1) 0; fl (4) 0]]) (zm [[(2)%Z; (-7)%Z]; [(-5)%Z; (3)%Z]]) (zm [[(6)%Z; (-1)%Z]; [(1)%Z; (4)%Z]])); conc|].
  intros u m' (r & K1 & K2). exists r. split; [exact K1|]. apply (K2 1 0); [simpl; lia|simpl; lia|vm_compute; discriminate].
Qed.

(** C = E + A B *)
Theorem C106_gemm_upd : forall prec emax (Hp : FLX.Prec_gt_0 prec) (He : Prec_lt_emax prec emax) (m : mem (fma_ops prec emax Hp He)) A B E C a b e (p : nat -> nat -> Z) (u : nat -> nat -> Z) (w : nat -> nat -> Z),
  ext0 C = ext0 A -> ext1 A = ext0 B -> ext1 C = ext1 B -> ext0 E = ext0 C -> ext1 E = ext1 C ->
  mat_holds m A a -> mat_holds m B b -> mat_holds m E e -> mwritable C -> allocated m (mcells C) ->
  disjoint (mcells A) (mcells C) -> disjoint (mcells B) (mcells C) -> disjoint_or_aligned_m E C ->
  (forall i j, i < ext0 A -> j < ext1 A -> surely (a i j) (p i j)) ->
  (forall i j, i < ext0 B -> j < ext1 B -> surely (b i j) (u i j)) ->
  (forall i j, i < ext0 E -> j < ext1 E -> surely (e i j) (w i j)) ->
  succeeds (matrix_product_upd A B E C) m (fun _ m' => exists r, mat_holds m' C r /\ forall i j, i < ext0 C -> j < ext1 C ->
    fits_in prec (Z.abs (w i j) + zsum (ext1 A) (fun k => Z.abs (p i k * u k j)))%Z -> surely (r i j) (w i j + zsum (ext1 A) (fun k => p i k * u k j))%Z).
Proof. exact gemm_upd_fused. Qed.
Print Assumptions C106_gemm_upd.
Example C106_gemm_upd_case : succeeds (matrix_product_upd (row_major 0 2 2) (row_major 4 2 2) (row_major 14 2 2) (row_major 18 2 2)) fused_mem (fun _ m' => exists r, mat_holds m' (row_major 18 2 2) r /\ surely (r 1 0 : poss 53 1024) (-24)).
Proof.
  eapply wp_conseq; [apply (C106_gemm_upd 53 1024 prec53 emax1024 fused_mem (row_major 0 2 2) (row_major 4 2 2) (row_major 14 2 2) (row_major 18 2 2) (mp [[fl (2) 0; fl (-7) 0]; [fl (-5) 0; fl (3) 0]]) (mp [[fl (6) 0; fl (-1) 0]; [fl (1) 0; fl (4) 0]]) (mp [[fl (1) 0; fl (-2) 0]; [fl (3) 0; fl (-4) 0]]) (zm [[(2)%Z; (-7)%Z]; [(-5)%Z; (3)%Z]]) (zm [[(6)%Z; (-1)%Z]; [(1)%Z; (4)%Z]]) (zm [[(1)%Z; (-2)%Z]; [(3)%Z; (-4)%Z]])); conc|].
  intros u m' (r & K1 & K2). exists r. split; [exact K1|]. apply (K2 1 0); [simpl; lia|simpl; lia|vm_compute; discriminate].
Qed.

(** C = A B, A symmetric *)
Theorem C106_symm_left : forall prec emax (Hp : FLX.Prec_gt_0 prec) (He : Prec_lt_emax prec emax) (m : mem (fma_ops prec emax Hp He)) A t B C a b (u : nat -> nat -> Z) (p : nat -> nat -> Z),
  ext0 A = ext1 A -> ext0 C = ext0 A -> ext1 A = ext0 B -> ext1 C = ext1 B ->
  mat_holds_on m A (in_tri t) a -> mat_holds m B b -> mwritable C -> allocated m (mcells C) ->
  disjoint (mcells_on A (in_tri t)) (mcells C) -> disjoint (mcells B) (mcells C) ->
  (forall i j, i < ext0 B -> j < ext1 B -> surely (b i j) (u i j)) ->
  (forall i j, i < ext0 A -> j < ext1 A -> in_tri t i j -> surely (a i j) (p i j)) ->
  symmetric_z p ->
  succeeds (symmetric_matrix_product_left A t B C) m (fun _ m' => exists r, mat_holds m' C r /\ forall i j, i < ext0 C -> j < ext1 C ->
    fits_in prec (zsum (ext1 A) (fun k => Z.abs (p i k * u k j)))%Z -> surely (r i j) (zsum (ext1 A) (fun k => p i k * u k j))%Z).
Proof. exact symm_left_fused. Qed.
Print Assumptions C106_symm_left.
Example C106_symm_left_case : succeeds (symmetric_matrix_product_left (row_major 0 2 2) Lower (row_major 4 2 2) (row_major 14 2 2)) fused_mem (fun _ m' => exists r, mat_holds m' (row_major 14 2 2) r /\ surely (r 1 0 : poss 53 1024) (-27)).
Proof.
  eapply wp_conseq; [apply (C106_symm_left 53 1024 prec53 emax1024 fused_mem (row_major 0 2 2) Lower (row_major 4 2 2) (row_major 14 2 2) (mp [[fl (2) 0; fl (-7) 0]; [fl (-5) 0; fl (3) 0]]) (mp [[fl (6) 0; fl (-1) 0]; [fl (1) 0; fl (4) 0]]) (zm [[(6)%Z; (-1)%Z]; [(1)%Z; (4)%Z]]) (zm [[(2)%Z; (-5)%Z]; [(-5)%Z; (3)%Z]])); conc|].
  intros u m' (r & K1 & K2). exists r. split; [exact K1|]. apply (K2 1 0); [simpl; lia|simpl; lia|vm_compute; discriminate].
Qed.

(** C = B A, A symmetric *)
Theorem C106_symm_right : forall prec emax (Hp : FLX.Prec_gt_0 prec) (He : Prec_lt_emax prec emax) (m : mem (fma_ops prec emax Hp He)) B A t C a b (u : nat -> nat -> Z) (p : nat -> nat -> Z),
  ext0 A = ext1 A -> ext0 C = ext0 B -> ext1 B = ext0 A -> ext1 C = ext1 A ->
  mat_holds_on m A (in_tri t) a -> mat_holds m B b -> mwritable C -> allocated m (mcells C) ->
  disjoint (mcells_on A (in_tri t)) (mcells C) -> disjoint (mcells B) (mcells C) ->
  (forall i j, i < ext0 B -> j < ext1 B -> surely (b i j) (u i j)) ->
  (forall i j, i < ext0 A -> j < ext1 A -> in_tri t i j -> surely (a i j) (p i j)) ->
  symmetric_z p ->
  succeeds (symmetric_matrix_product_right B A t C) m (fun _ m' => exists r, mat_holds m' C r /\ forall i j, i < ext0 C -> j < ext1 C ->
    fits_in prec (zsum (ext1 A) (fun k => Z.abs (u i k * p k j)))%Z -> surely (r i j) (zsum (ext1 A) (fun k => u i k * p k j))%Z).
Proof. exact symm_right_fused. Qed.
Print Assumptions C106_symm_right.
Example C106_symm_right_case : succeeds (symmetric_matrix_product_right (row_major 4 2 2) (row_major 0 2 2) Lower (row_major 14 2 2)) fused_mem (fun _ m' => exists r, mat_holds m' (row_major 14 2 2) r /\ surely (r 1 0 : poss 53 1024) (-18)).
Proof.
  eapply wp_conseq; [apply (C106_symm_right 53 1024 prec53 emax1024 fused_mem (row_major 4 2 2) (row_major 0 2 2) Lower (row_major 14 2 2) (mp [[fl (2) 0; fl (-7) 0]; [fl (-5) 0; fl (3) 0]]) (mp [[fl (6) 0; fl (-1) 0]; [fl (1) 0; fl (4) 0]]) (zm [[(6)%Z; (-1)%Z]; [(1)%Z; (4)%Z]]) (zm [[(2)%Z; (-5)%Z]; [(-5)%Z; (3)%Z]])); conc|].
  intros u m' (r & K1 & K2). exists r. split; [exact K1|]. apply (K2 1 0); [simpl; lia|simpl; lia|vm_compute; discriminate].
Qed.

(** C = A B, A Hermitian *)
Theorem C106_hemm_left : forall prec emax (Hp : FLX.Prec_gt_0 prec) (He : Prec_lt_emax prec emax) (m : mem (fma_ops prec emax Hp He)) A t B C a b (u : nat -> nat -> Z) (p : nat -> nat -> Z),
  ext0 A = ext1 A -> ext0 C = ext0 A -> ext1 A = ext0 B -> ext1 C = ext1 B ->
  mat_holds_on m A (in_tri t) a -> mat_holds m B b -> mwritable C -> allocated m (mcells C) ->
  disjoint (mcells_on A (in_tri t)) (mcells C) -> disjoint (mcells B) (mcells C) ->
  (forall i j, i < ext0 B -> j < ext1 B -> surely (b i j) (u i j)) ->
  (forall i j, i < ext0 A -> j < ext1 A -> in_tri t i j -> surely (a i j) (p i j)) ->
  symmetric_z p ->
  succeeds (hermitian_matrix_product_left A t B C) m (fun _ m' => exists r, mat_holds m' C r /\ forall i j, i < ext0 C -> j < ext1 C ->
    fits_in prec (zsum (ext1 A) (fun k => Z.abs (p i k * u k j)))%Z -> surely (r i j) (zsum (ext1 A) (fun k => p i k * u k j))%Z).
Proof. exact hemm_left_fused. Qed.
Print Assumptions C106_hemm_left.
Example C106_hemm_left_case : succeeds (hermitian_matrix_product_left (row_major 0 2 2) Lower (row_major 4 2 2) (row_major 14 2 2)) fused_mem (fun _ m' => exists r, mat_holds m' (row_major 14 2 2) r /\ surely (r 1 0 : poss 53 1024) (-27)).
Proof.
  eapply wp_conseq; [apply (C106_hemm_left 53 1024 prec53 emax1024 fused_mem (row_major 0 2 2) Lower (row_major 4 2 2) (row_major 14 2 2) (mp [[fl (2) 0; fl (-7) 0]; [fl (-5) 0; fl (3) 0]]) (mp [[fl (6) 0; fl (-1) 0]; [fl (1) 0; fl (4) 0]]) (zm [[(6)%Z; (-1)%Z]; [(1)%Z; (4)%Z]]) (zm [[(2)%Z; (-5)%Z]; [(-5)%Z; (3)%Z]])); conc|].
  intros u m' (r & K1 & K2). exists r. split; [exact K1|]. apply (K2 1 0); [simpl; lia|simpl; lia|vm_compute; discriminate].
Qed.

(** C = B A, A Hermitian *)
Theorem C106_hemm_right : forall prec emax (Hp : FLX.Prec_gt_0 prec) (He : Prec_lt_emax prec emax) (m : mem (fma_ops prec emax Hp He)) B A t C a b (u : nat -> nat -> Z) (p : nat -> nat -> Z),
  ext0 A = ext1 A -> ext0 C = ext0 B -> ext1 B = ext0 A -> ext1 C = ext1 A ->
  mat_holds_on m A (in_tri t) a -> mat_holds m B b -> mwritable C -> allocated m (mcells C) ->
  disjoint (mcells_on A (in_tri t)) (mcells C) -> disjoint (mcells B) (mcells C) ->
  (forall i j, i < ext0 B -> j < ext1 B -> surely (b i j) (u i j)) ->
  (forall i j, i < ext0 A -> j < ext1 A -> in_tri t i j -> surely (a i j) (p i j)) ->
  symmetric_z p ->
  succeeds (hermitian_matrix_product_right B A t C) m (fun _ m' => exists r, mat_holds m' C r /\ forall i j, i < ext0 C -> j < ext1 C ->
    fits_in prec (zsum (ext1 A) (fun k => Z.abs (u i k * p k j)))%Z -> surely (r i j) (zsum (ext1 A) (fun k => u i k * p k j))%Z).
Proof. exact hemm_right_fused. Qed.
Print Assumptions C106_hemm_right.
Example C106_hemm_right_case : succeeds (hermitian_matrix_product_right (row_major 4 2 2) (row_major 0 2 2) Lower (row_major 14 2 2)) fused_mem (fun _ m' => exists r, mat_holds m' (row_major 14 2 2) r /\ surely (r 1 0 : poss 53 1024) (-18)).
Proof.
  eapply wp_conseq; [apply (C106_hemm_right 53 1024 prec53 emax1024 fused_mem (row_major 4 2 2) (row_major 0 2 2) Lower (row_major 14 2 2) (mp [[fl (2) 0; fl (-7) 0]; [fl (-5) 0; fl (3) 0]]) (mp [[fl (6) 0; fl (-1) 0]; [fl (1) 0; fl (4) 0]]) (zm [[(6)%Z; (-1)%Z]; [(1)%Z; (4)%Z]]) (zm [[(2)%Z; (-5)%Z]; [(-5)%Z; (3)%Z]])); conc|].
  intros u m' (r & K1 & K2). exists r. split; [exact K1|]. apply (K2 1 0); [simpl; lia|simpl; lia|vm_compute; discriminate].
Qed.

(** C = A B, A triangular *)
Theorem C106_trmm_left : forall prec emax (Hp : FLX.Prec_gt_0 prec) (He : Prec_lt_emax prec emax) ty (m : mem (fma_ops prec emax Hp He)) A t d B C a b (u : nat -> nat -> Z) (p : nat -> nat -> Z),
  fits ty (ext0 C) ->
  ext0 A = ext1 A -> ext0 C = ext0 A -> ext1 A = ext0 B -> ext1 C = ext1 B ->
  mat_holds_on m A (stored t d) a -> mat_holds m B b -> mwritable C -> allocated m (mcells C) ->
  disjoint (mcells_on A (stored t d)) (mcells C) -> disjoint (mcells B) (mcells C) ->
  (forall i j, i < ext0 B -> j < ext1 B -> surely (b i j) (u i j)) ->
  (forall i j, i < ext0 A -> j < ext1 A -> stored t d i j -> surely (a i j) (p i j)) ->
  triangular_z t d p ->
  succeeds (triangular_matrix_product_left ty A t d B C) m (fun _ m' => exists r, mat_holds m' C r /\ forall i j, i < ext0 C -> j < ext1 C ->
    fits_in prec (zsum (ext1 A) (fun k => Z.abs (p i k * u k j)))%Z -> surely (r i j) (zsum (ext1 A) (fun k => p i k * u k j))%Z).
Proof. exact trmm_left_fused. Qed.
Print Assumptions C106_trmm_left.
Example C106_trmm_left_case : succeeds (triangular_matrix_product_left I32 (row_major 0 2 2) Lower Explicit (row_major 4 2 2) (row_major 14 2 2)) fused_mem (fun _ m' => exists r, mat_holds m' (row_major 14 2 2) r /\ surely (r 1 0 : poss 53 1024) (-27)).
Proof.
  eapply wp_conseq; [apply (C106_trmm_left 53 1024 prec53 emax1024 I32 fused_mem (row_major 0 2 2) Lower Explicit (row_major 4 2 2) (row_major 14 2 2) (mp [[fl (2) 0; fl (-7) 0]; [fl (-5) 0; fl (3) 0]]) (mp [[fl (6) 0; fl (-1) 0]; [fl (1) 0; fl (4) 0]]) (zm [[(6)%Z; (-1)%Z]; [(1)%Z; (4)%Z]]) (zm [[(2)%Z; (0)%Z]; [(-5)%Z; (3)%Z]])); conc|].
  intros u m' (r & K1 & K2). exists r. split; [exact K1|]. apply (K2 1 0); [simpl; lia|simpl; lia|vm_compute; discriminate].
Qed.

(** C = B A, A triangular *)
Theorem C106_trmm_right : forall prec emax (Hp : FLX.Prec_gt_0 prec) (He : Prec_lt_emax prec emax) ty (m : mem (fma_ops prec emax Hp He)) B A t d C a b (u : nat -> nat -> Z) (p : nat -> nat -> Z),
  fits ty (ext1 C) ->
  ext0 A = ext1 A -> ext0 C = ext0 B -> ext1 B = ext0 A -> ext1 C = ext1 A ->
  mat_holds_on m A (stored t d) a -> mat_holds m B b -> mwritable C -> allocated m (mcells C) ->
  disjoint (mcells_on A (stored t d)) (mcells C) -> disjoint (mcells B) (mcells C) ->
  (forall i j, i < ext0 B -> j < ext1 B -> surely (b i j) (u i j)) ->
  (forall i j, i < ext0 A -> j < ext1 A -> stored t d i j -> surely (a i j) (p i j)) ->
  triangular_z t d p ->
  succeeds (triangular_matrix_product_right ty B A t d C) m (fun _ m' => exists r, mat_holds m' C r /\ forall i j, i < ext0 C -> j < ext1 C ->
    fits_in prec (zsum (ext1 A) (fun k => Z.abs (u i k * p k j)))%Z -> surely (r i j) (zsum (ext1 A) (fun k => u i k * p k j))%Z).
Proof. exact trmm_right_fused. Qed.
Print Assumptions C106_trmm_right.
Example C106_trmm_right_case : succeeds (triangular_matrix_product_right I32 (row_major 4 2 2) (row_major 0 2 2) Lower Explicit (row_major 14 2 2)) fused_mem (fun _ m' => exists r, mat_holds m' (row_major 14 2 2) r /\ surely (r 1 0 : poss 53 1024) (-18)).
Proof.
  eapply wp_conseq; [apply (C106_trmm_right 53 1024 prec53 emax1024 I32 fused_mem (row_major 4 2 2) (row_major 0 2 2) Lower Explicit (row_major 14 2 2) (mp [[fl (2) 0; fl (-7) 0]; [fl (-5) 0; fl (3) 0]]) (mp [[fl (6) 0; fl (-1) 0]; [fl (1) 0; fl (4) 0]]) (zm [[(6)%Z; (-1)%Z]; [(1)%Z; (4)%Z]]) (zm [[(2)%Z; (0)%Z]; [(-5)%Z; (3)%Z]])); conc|].
  intros u m' (r & K1 & K2). exists r. split; [exact K1|]. apply (K2 1 0); [simpl; lia|simpl; lia|vm_compute; discriminate].
Qed.

(** C = A C, A triangular *)
Theorem C106_trmm_left_inplace : forall prec emax (Hp : FLX.Prec_gt_0 prec) (He : Prec_lt_emax prec emax) (m : mem (fma_ops prec emax Hp He)) A t d C a c (w : nat -> nat -> Z) (p : nat -> nat -> Z),
  ext0 A = ext1 A -> ext0 C = ext0 A ->
  mat_holds_on m A (stored t d) a -> mat_holds m C c -> mwritable C ->
  disjoint (mcells_on A (stored t d)) (mcells C) ->
  (forall i j, i < ext0 C -> j < ext1 C -> surely (c i j) (w i j)) ->
  (forall i j, i < ext0 A -> j < ext1 A -> stored t d i j -> surely (a i j) (p i j)) ->
  triangular_z t d p ->
  succeeds (triangular_matrix_left_product A t d C) m (fun _ m' => exists r, mat_holds m' C r /\ forall i j, i < ext0 C -> j < ext1 C ->
    fits_in prec (zsum (ext1 A) (fun k => Z.abs (p i k * w k j)))%Z -> surely (r i j) (zsum (ext1 A) (fun k => p i k * w k j))%Z).
Proof. exact trmm_left_inplace_fused. Qed.
Print Assumptions C106_trmm_left_inplace.
Example C106_trmm_left_inplace_case : succeeds (triangular_matrix_left_product (row_major 0 2 2) Lower Explicit (row_major 4 2 2)) fused_mem (fun _ m' => exists r, mat_holds m' (row_major 4 2 2) r /\ surely (r 1 0 : poss 53 1024) (-27)).
Proof.
  eapply wp_conseq; [apply (C106_trmm_left_inplace 53 1024 prec53 emax1024 fused_mem (row_major 0 2 2) Lower Explicit (row_major 4 2 2) (mp [[fl (2) 0; fl (-7) 0]; [fl (-5) 0; fl (3) 0]]) (mp [[fl (6) 0; fl (-1) 0]; [fl (1) 0; fl (4) 0]]) (zm [[(6)%Z; (-1)%Z]; [(1)%Z; (4)%Z]]) (zm [[(2)%Z; (0)%Z]; [(-5)%Z; (3)%Z]])); conc|].
  intros u m' (r & K1 & K2). exists r. split; [exact K1|]. apply (K2 1 0); [simpl; lia|simpl; lia|vm_compute; discriminate].
Qed.

(** C = C A, A triangular *)
Theorem C106_trmm_right_inplace : forall prec emax (Hp : FLX.Prec_gt_0 prec) (He : Prec_lt_emax prec emax) (m : mem (fma_ops prec emax Hp He)) A t d C a c (w : nat -> nat -> Z) (p : nat -> nat -> Z),
  ext0 A = ext1 A -> ext1 C = ext0 A ->
  mat_holds_on m A (stored t d) a -> mat_holds m C c -> mwritable C ->
  disjoint (mcells_on A (stored t d)) (mcells C) ->
  (forall i j, i < ext0 C -> j < ext1 C -> surely (c i j) (w i j)) ->
  (forall i j, i < ext0 A -> j < ext1 A -> stored t d i j -> surely (a i j) (p i j)) ->
  triangular_z t d p ->
  succeeds (triangular_matrix_right_product A t d C) m (fun _ m' => exists r, mat_holds m' C r /\ forall i j, i < ext0 C -> j < ext1 C ->
    fits_in prec (zsum (ext1 A) (fun k => Z.abs (w i k * p k j)))%Z -> surely (r i j) (zsum (ext1 A) (fun k => w i k * p k j))%Z).
Proof. exact trmm_right_inplace_fused. Qed.
Print Assumptions C106_trmm_right_inplace.
Example C106_trmm_right_inplace_case : succeeds (triangular_matrix_right_product (row_major 0 2 2) Lower Explicit (row_major 4 2 2)) fused_mem (fun _ m' => exists r, mat_holds m' (row_major 4 2 2) r /\ surely (r 1 0 : poss 53 1024) (-18)).
Proof.
  eapply wp_conseq; [apply (C106_trmm_right_inplace 53 1024 prec53 emax1024 fused_mem (row_major 0 2 2) Lower Explicit (row_major 4 2 2) (mp [[fl (2) 0; fl (-7) 0]; [fl (-5) 0; fl (3) 0]]) (mp [[fl (6) 0; fl (-1) 0]; [fl (1) 0; fl (4) 0]]) (zm [[(6)%Z; (-1)%Z]; [(1)%Z; (4)%Z]]) (zm [[(2)%Z; (0)%Z]; [(-5)%Z; (3)%Z]])); conc|].
  intros u m' (r & K1 & K2). exists r. split; [exact K1|]. apply (K2 1 0); [simpl; lia|simpl; lia|vm_compute; discriminate].
Qed.

(** C += A A^T on one triangle *)
Theorem C106_syrk : forall prec emax (Hp : FLX.Prec_gt_0 prec) (He : Prec_lt_emax prec emax) (m : mem (fma_ops prec emax Hp He)) A C t a c (p : nat -> nat -> Z) (w : nat -> nat -> Z),
  ext0 C = ext1 C -> ext0 A = ext0 C ->
  mat_holds m A a -> mat_holds_on m C (in_tri t) c -> mwritable_on C (in_tri t) ->
  disjoint (mcells A) (mcells_on C (in_tri t)) ->
  (forall i j, i < ext0 A -> j < ext1 A -> surely (a i j) (p i j)) ->
  (forall i j, i < ext0 C -> j < ext1 C -> in_tri t i j -> surely (c i j) (w i j)) ->
  succeeds (symmetric_matrix_rank_k_update A C t) m (fun _ m' => exists r, mat_holds_on m' C (in_tri t) r /\ forall i j, i < ext0 C -> j < ext1 C -> in_tri t i j ->
    fits_in prec (Z.abs (w i j) + zsum (ext1 A) (fun k => Z.abs (p i k * p j k)))%Z -> surely (r i j) (w i j + zsum (ext1 A) (fun k => p i k * p j k))%Z).
Proof. exact syrk_fused. Qed.
Print Assumptions C106_syrk.
Example C106_syrk_case : succeeds (symmetric_matrix_rank_k_update (row_major 0 2 2) (row_major 14 2 2) Lower) fused_mem (fun _ m' => exists r, mat_holds_on m' (row_major 14 2 2) (in_tri Lower) r /\ surely (r 1 0 : poss 53 1024) (-28)).
Proof.
  eapply wp_conseq; [apply (C106_syrk 53 1024 prec53 emax1024 fused_mem (row_major 0 2 2) (row_major 14 2 2) Lower (mp [[fl (2) 0; fl (-7) 0]; [fl (-5) 0; fl (3) 0]]) (mp [[fl (1) 0; fl (-2) 0]; [fl (3) 0; fl (-4) 0]]) (zm [[(2)%Z; (-7)%Z]; [(-5)%Z; (3)%Z]]) (zm [[(1)%Z; (-2)%Z]; [(3)%Z; (-4)%Z]])); conc|].
  intros u m' (r & K1 & K2). exists r. split; [exact K1|]. apply (K2 1 0); [simpl; lia|simpl; lia|simpl; lia|vm_compute; discriminate].
Qed.

(** C += A A^H on one triangle *)
Theorem C106_herk : forall prec emax (Hp : FLX.Prec_gt_0 prec) (He : Prec_lt_emax prec emax) (m : mem (fma_ops prec emax Hp He)) A C t a c (p : nat -> nat -> Z) (w : nat -> nat -> Z),
  ext0 C = ext1 C -> ext0 A = ext0 C ->
  mat_holds m A a -> mat_holds_on m C (in_tri t) c -> mwritable_on C (in_tri t) ->
  disjoint (mcells A) (mcells_on C (in_tri t)) ->
  (forall i j, i < ext0 A -> j < ext1 A -> surely (a i j) (p i j)) ->
  (forall i j, i < ext0 C -> j < ext1 C -> in_tri t i j -> surely (c i j) (w i j)) ->
  succeeds (hermitian_matrix_rank_k_update A C t) m (fun _ m' => exists r, mat_holds_on m' C (in_tri t) r /\ forall i j, i < ext0 C -> j < ext1 C -> in_tri t i j ->
    fits_in prec (Z.abs (w i j) + zsum (ext1 A) (fun k => Z.abs (p i k * p j k)))%Z -> surely (r i j) (w i j + zsum (ext1 A) (fun k => p i k * p j k))%Z).
Proof. exact herk_fused. Qed.
Print Assumptions C106_herk.
Example C106_herk_case : succeeds (hermitian_matrix_rank_k_update (row_major 0 2 2) (row_major 14 2 2) Lower) fused_mem (fun _ m' => exists r, mat_holds_on m' (row_major 14 2 2) (in_tri Lower) r /\ surely (r 1 0 : poss 53 1024) (-28)).
Proof.
  eapply wp_conseq; [apply (C106_herk 53 1024 prec53 emax1024 fused_mem (row_major 0 2 2) (row_major 14 2 2) Lower (mp [[fl (2) 0; fl (-7) 0]; [fl (-5) 0; fl (3) 0]]) (mp [[fl (1) 0; fl (-2) 0]; [fl (3) 0; fl (-4) 0]]) (zm [[(2)%Z; (-7)%Z]; [(-5)%Z; (3)%Z]]) (zm [[(1)%Z; (-2)%Z]; [(3)%Z; (-4)%Z]])); conc|].
  intros u m' (r & K1 & K2). exists r. split; [exact K1|]. apply (K2 1 0); [simpl; lia|simpl; lia|simpl; lia|vm_compute; discriminate].
Qed.

(** C += A B^T + B A^T on one triangle *)
Theorem C106_syr2k : forall prec emax (Hp : FLX.Prec_gt_0 prec) (He : Prec_lt_emax prec emax) (m : mem (fma_ops prec emax Hp He)) A B C t a b c (p : nat -> nat -> Z) (u : nat -> nat -> Z) (w : nat -> nat -> Z),
  ext0 C = ext1 C -> ext0 A = ext0 C -> ext0 B = ext0 C -> ext1 B = ext1 A ->
  mat_holds m A a -> mat_holds m B b -> mat_holds_on m C (in_tri t) c -> mwritable_on C (in_tri t) ->
  disjoint (mcells A) (mcells_on C (in_tri t)) -> disjoint (mcells B) (mcells_on C (in_tri t)) ->
  (forall i j, i < ext0 A -> j < ext1 A -> surely (a i j) (p i j)) ->
  (forall i j, i < ext0 B -> j < ext1 B -> surely (b i j) (u i j)) ->
  (forall i j, i < ext0 C -> j < ext1 C -> in_tri t i j -> surely (c i j) (w i j)) ->
  succeeds (symmetric_matrix_rank_2k_update A B C t) m (fun _ m' => exists r, mat_holds_on m' C (in_tri t) r /\ forall i j, i < ext0 C -> j < ext1 C -> in_tri t i j ->
    fits_in prec (Z.abs (w i j) + zsum (ext1 A) (fun k => (Z.abs (p i k * u j k) + Z.abs (u i k * p j k))%Z))%Z -> surely (r i j) (w i j + zsum (ext1 A) (fun k => (p i k * u j k + u i k * p j k)%Z))%Z).
Proof. exact syr2k_fused. Qed.
Print Assumptions C106_syr2k.
Example C106_syr2k_case : succeeds (symmetric_matrix_rank_2k_update (row_major 0 2 2) (row_major 4 2 2) (row_major 14 2 2) Lower) fused_mem (fun _ m' => exists r, mat_holds_on m' (row_major 14 2 2) (in_tri Lower) r /\ surely (r 1 0 : poss 53 1024) (-56)).
Proof.
  eapply wp_conseq; [apply (C106_syr2k 53 1024 prec53 emax1024 fused_mem (row_major 0 2 2) (row_major 4 2 2) (row_major 14 2 2) Lower (mp [[fl (2) 0; fl (-7) 0]; [fl (-5) 0; fl (3) 0]]) (mp [[fl (6) 0; fl (-1) 0]; [fl (1) 0; fl (4) 0]]) (mp [[fl (1) 0; fl (-2) 0]; [fl (3) 0; fl (-4) 0]]) (zm [[(2)%Z; (-7)%Z]; [(-5)%Z; (3)%Z]]) (zm [[(6)%Z; (-1)%Z]; [(1)%Z; (4)%Z]]) (zm [[(1)%Z; (-2)%Z]; [(3)%Z; (-4)%Z]])); conc|].
  intros u m' (r & K1 & K2). exists r. split; [exact K1|]. apply (K2 1 0); [simpl; lia|simpl; lia|simpl; lia|vm_compute; discriminate].
Qed.

(** C += A B^H + B A^H on one triangle *)
Theorem C106_her2k : forall prec emax (Hp : FLX.Prec_gt_0 prec) (He : Prec_lt_emax prec emax) (m : mem (fma_ops prec emax Hp He)) A B C t a b c (p : nat -> nat -> Z) (u : nat -> nat -> Z) (w : nat -> nat -> Z),
  ext0 C = ext1 C -> ext0 A = ext0 C -> ext0 B = ext0 C -> ext1 B = ext1 A ->
  mat_holds m A a -> mat_holds m B b -> mat_holds_on m C (in_tri t) c -> mwritable_on C (in_tri t) ->
  disjoint (mcells A) (mcells_on C (in_tri t)) -> disjoint (mcells B) (mcells_on C (in_tri t)) ->
  (forall i j, i < ext0 A -> j < ext1 A -> surely (a i j) (p i j)) ->
  (forall i j, i < ext0 B -> j < ext1 B -> surely (b i j) (u i j)) ->
  (forall i j, i < ext0 C -> j < ext1 C -> in_tri t i j -> surely (c i j) (w i j)) ->
  succeeds (hermitian_matrix_rank_2k_update A B C t) m (fun _ m' => exists r, mat_holds_on m' C (in_tri t) r /\ forall i j, i < ext0 C -> j < ext1 C -> in_tri t i j ->
    fits_in prec (Z.abs (w i j) + zsum (ext1 A) (fun k => (Z.abs (p i k * u j k) + Z.abs (u i k * p j k))%Z))%Z -> surely (r i j) (w i j + zsum (ext1 A) (fun k => (p i k * u j k + u i k * p j k)%Z))%Z).
Proof. exact her2k_fused. Qed.
Print Assumptions C106_her2k.
Example C106_her2k_case : succeeds (hermitian_matrix_rank_2k_update (row_major 0 2 2) (row_major 4 2 2) (row_major 14 2 2) Lower) fused_mem (fun _ m' => exists r, mat_holds_on m' (row_major 14 2 2) (in_tri Lower) r /\ surely (r 1 0 : poss 53 1024) (-56)).
Proof.
  eapply wp_conseq; [apply (C106_her2k 53 1024 prec53 emax1024 fused_mem (row_major 0 2 2) (row_major 4 2 2) (row_major 14 2 2) Lower (mp [[fl (2) 0; fl (-7) 0]; [fl (-5) 0; fl (3) 0]]) (mp [[fl (6) 0; fl (-1) 0]; [fl (1) 0; fl (4) 0]]) (mp [[fl (1) 0; fl (-2) 0]; [fl (3) 0; fl (-4) 0]]) (zm [[(2)%Z; (-7)%Z]; [(-5)%Z; (3)%Z]]) (zm [[(6)%Z; (-1)%Z]; [(1)%Z; (4)%Z]]) (zm [[(1)%Z; (-2)%Z]; [(3)%Z; (-4)%Z]])); conc|].
  intros u m' (r & K1 & K2). exists r. split; [exact K1|]. apply (K2 1 0); [simpl; lia|simpl; lia|simpl; lia|vm_compute; discriminate].
Qed.

