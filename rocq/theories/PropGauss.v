(** C108: where the parts of complex data are integers and the sums of sizes of the terms have no more digits than the format, floating-point
    results are the exact complex integers. *)
From Coq Require Import List Arith ZArith Reals Lia Bool.
From Flocq Require Import Core.Core IEEE754.BinarySingleNaN.
From Verif Require Import Mem Scalar View Spec SpecI SpecExact SpecGauss Idx Norm Ieee IeeeC Blas1 Blas2 Blas3 Wp PfExactI PfGauss Inst PropFloat.
Import ListNotations.
Local Open Scope nat_scope.

(** Used below, in binary64: A = [2+i -7; -5+2i 3-i], B = [6 -1+3i; 1-i 4], x = (-1+2i, 3), y = (4-4i, -5), w = (2i, -6+i),
    C = [1 -2+i; 3 -4-2i], D = 0; symmetric and Hermitian matrices are given by lower triangles.  Nothing is recovered or divided. *)
Notation CC := (ieee_c 53 1024 prec53 emax1024 (fun x _ => x) (fun x _ => x)).
Definition gauss_mem : mem CC := (* test data *)
  mem_of [(fl (2) 0, fl (1) 0); (fl (-7) 0, fl (0) 0); (fl (-5) 0, fl (2) 0); (fl (3) 0, fl (-1) 0); (fl (6) 0, fl (0) 0); (fl (-1) 0, fl (3) 0); (fl (1) 0, fl (-1) 0); (fl (4) 0, fl (0) 0); (fl (-1) 0, fl (2) 0); (fl (3) 0, fl (0) 0); (fl (4) 0, fl (-4) 0); (fl (-5) 0, fl (0) 0); (fl (0) 0, fl (2) 0); (fl (-6) 0, fl (1) 0); (fl (1) 0, fl (0) 0); (fl (-2) 0, fl (1) 0); (fl (3) 0, fl (0) 0); (fl (-4) 0, fl (-2) 0); (fl (0) 0, fl (0) 0); (fl (0) 0, fl (0) 0); (fl (0) 0, fl (0) 0); (fl (0) 0, fl (0) 0)].
Definition cv (l : list CC) (i : nat) : CC := nth i l zero. (* test data *)
Definition cm (l : list (list CC)) (i j : nat) : CC := nth j (nth i l []) zero. (* test data *)
Definition gv (l : list gauss) (i : nat) : gauss := nth i l zero. (* test data *)
Definition gm (l : list (list gauss)) (i j : nat) : gauss := nth j (nth i l []) zero. (* test data *)
Ltac small := split; apply norm_int; vm_compute; discriminate.
Ltac ints := intros; repeat match goal with K : ?k < _ |- _ => simpl in K; destruct k as [|[|k]]; [| |exfalso; clear - K; lia]; clear K end;
  first [exfalso; match goal with K : in_tri _ _ _ |- _ => simpl in K; clear - K; lia end | small].
Ltac conc := unfold gauss_mem;
  match goal with
  | |- gauss_valued _ _ => small
  | |- forall i, i < _ -> gauss_valued _ _ => ints
  | |- forall i j, i < _ -> j < _ -> _ => ints
  | _ => concrete; try solve [intros; reflexivity | vm_compute; split; discriminate | discriminate | intros; discriminate]
  end.

(** x = alpha x *)
Theorem C108_scale : forall prec emax (Hp : FLX.Prec_gt_0 prec) (He : Prec_lt_emax prec emax) recover cdiv (m : mem (ieee_c prec emax Hp He recover cdiv)) (alpha : ieee_c prec emax Hp He recover cdiv) x f (q : nat -> gauss) (al : gauss),
  vec_holds m x f -> vwritable x ->
  (forall i, i < vext x -> gauss_valued (f i) (q i)) ->
  gauss_valued alpha al ->
  succeeds (scale_1 alpha x) m (fun _ m' => exists r, vec_holds m' x r /\ forall i, i < vext x ->
    fits_in prec (size (q i) * size al)%Z -> gauss_valued (r i) ((q i * al)%sc)).
Proof. exact scale_gauss. Qed.
Print Assumptions C108_scale.
Example C108_scale_case : succeeds (scale_1 ((fl (-3) 0, fl (1) 0) : CC) (vec_at 8 2)) gauss_mem (fun _ m' => exists r, vec_holds m' (vec_at 8 2) r /\ gauss_valued (r 1 : CC) ((-9)%Z, (3)%Z)).
Proof.
  eapply wp_conseq; [apply (C108_scale 53 1024 prec53 emax1024 (fun x _ => x) (fun x _ => x) gauss_mem ((fl (-3) 0, fl (1) 0) : CC) (vec_at 8 2) (cv [(fl (-1) 0, fl (2) 0); (fl (3) 0, fl (0) 0)]) (gv [((-1)%Z, (2)%Z); ((3)%Z, (0)%Z)]) ((-3)%Z, (1)%Z)); conc|].
  intros u m' (r & K1 & K2). exists r. split; [exact K1|]. apply (K2 1); [simpl; lia|vm_compute; discriminate].
Qed.

(** the same for a matrix *)
Theorem C108_scale_2 : forall prec emax (Hp : FLX.Prec_gt_0 prec) (He : Prec_lt_emax prec emax) recover cdiv (m : mem (ieee_c prec emax Hp He recover cdiv)) (alpha : ieee_c prec emax Hp He recover cdiv) x f (q : nat -> nat -> gauss) (al : gauss),
  mat_holds m x f -> mwritable x ->
  (forall i j, i < ext0 x -> j < ext1 x -> gauss_valued (f i j) (q i j)) ->
  gauss_valued alpha al ->
  succeeds (scale_2 alpha x) m (fun _ m' => exists r, mat_holds m' x r /\ forall i j, i < ext0 x -> j < ext1 x ->
    fits_in prec (size (q i j) * size al)%Z -> gauss_valued (r i j) ((q i j * al)%sc)).
Proof. exact scale_2_gauss. Qed.
Print Assumptions C108_scale_2.
Example C108_scale_2_case : succeeds (scale_2 ((fl (-3) 0, fl (1) 0) : CC) (row_major 4 2 2)) gauss_mem (fun _ m' => exists r, mat_holds m' (row_major 4 2 2) r /\ gauss_valued (r 1 0 : CC) ((-2)%Z, (4)%Z)).
Proof.
  eapply wp_conseq; [apply (C108_scale_2 53 1024 prec53 emax1024 (fun x _ => x) (fun x _ => x) gauss_mem ((fl (-3) 0, fl (1) 0) : CC) (row_major 4 2 2) (cm [[(fl (6) 0, fl (0) 0); (fl (-1) 0, fl (3) 0)]; [(fl (1) 0, fl (-1) 0); (fl (4) 0, fl (0) 0)]]) (gm [[((6)%Z, (0)%Z); ((-1)%Z, (3)%Z)]; [((1)%Z, (-1)%Z); ((4)%Z, (0)%Z)]]) ((-3)%Z, (1)%Z)); conc|].
  intros u m' (r & K1 & K2). exists r. split; [exact K1|]. apply (K2 1 0); [simpl; lia|simpl; lia|vm_compute; discriminate].
Qed.

(** z = x + y *)
Theorem C108_add : forall prec emax (Hp : FLX.Prec_gt_0 prec) (He : Prec_lt_emax prec emax) recover cdiv (m : mem (ieee_c prec emax Hp He recover cdiv)) x y z f g (q : nat -> gauss) (s : nat -> gauss),
  vext x = vext z -> vext y = vext z -> vec_holds m x f -> vec_holds m y g ->
  vwritable z -> allocated m (vcells z) -> disjoint_or_aligned_v x z -> disjoint_or_aligned_v y z ->
  (forall i, i < vext x -> gauss_valued (f i) (q i)) ->
  (forall i, i < vext y -> gauss_valued (g i) (s i)) ->
  succeeds (add_1 x y z) m (fun _ m' => exists r, vec_holds m' z r /\ forall i, i < vext z ->
    fits_in prec (size (q i) + size (s i))%Z -> gauss_valued (r i) ((q i + s i)%sc)).
Proof. exact add_gauss. Qed.
Print Assumptions C108_add.
Example C108_add_case : succeeds (add_1 (vec_at 8 2) (vec_at 12 2) (vec_at 10 2)) gauss_mem (fun _ m' => exists r, vec_holds m' (vec_at 10 2) r /\ gauss_valued (r 1 : CC) ((-3)%Z, (1)%Z)).
Proof.
  eapply wp_conseq; [apply (C108_add 53 1024 prec53 emax1024 (fun x _ => x) (fun x _ => x) gauss_mem (vec_at 8 2) (vec_at 12 2) (vec_at 10 2) (cv [(fl (-1) 0, fl (2) 0); (fl (3) 0, fl (0) 0)]) (cv [(fl (0) 0, fl (2) 0); (fl (-6) 0, fl (1) 0)]) (gv [((-1)%Z, (2)%Z); ((3)%Z, (0)%Z)]) (gv [((0)%Z, (2)%Z); ((-6)%Z, (1)%Z)])); conc|].
  intros u m' (r & K1 & K2). exists r. split; [exact K1|]. apply (K2 1); [simpl; lia|vm_compute; discriminate].
Qed.

(** the same for matrices *)
Theorem C108_add_2 : forall prec emax (Hp : FLX.Prec_gt_0 prec) (He : Prec_lt_emax prec emax) recover cdiv (m : mem (ieee_c prec emax Hp He recover cdiv)) x y z f g (q : nat -> nat -> gauss) (s : nat -> nat -> gauss),
  ext0 x = ext0 z -> ext1 x = ext1 z -> ext0 y = ext0 z -> ext1 y = ext1 z ->
  mat_holds m x f -> mat_holds m y g ->
  mwritable z -> allocated m (mcells z) -> disjoint_or_aligned_m x z -> disjoint_or_aligned_m y z ->
  (forall i j, i < ext0 x -> j < ext1 x -> gauss_valued (f i j) (q i j)) ->
  (forall i j, i < ext0 y -> j < ext1 y -> gauss_valued (g i j) (s i j)) ->
  succeeds (add_2 x y z) m (fun _ m' => exists r, mat_holds m' z r /\ forall i j, i < ext0 z -> j < ext1 z ->
    fits_in prec (size (q i j) + size (s i j))%Z -> gauss_valued (r i j) ((q i j + s i j)%sc)).
Proof. exact add_2_gauss. Qed.
Print Assumptions C108_add_2.
Example C108_add_2_case : succeeds (add_2 (row_major 0 2 2) (row_major 4 2 2) (row_major 14 2 2)) gauss_mem (fun _ m' => exists r, mat_holds m' (row_major 14 2 2) r /\ gauss_valued (r 1 0 : CC) ((-4)%Z, (1)%Z)).
Proof.
  eapply wp_conseq; [apply (C108_add_2 53 1024 prec53 emax1024 (fun x _ => x) (fun x _ => x) gauss_mem (row_major 0 2 2) (row_major 4 2 2) (row_major 14 2 2) (cm [[(fl (2) 0, fl (1) 0); (fl (-7) 0, fl (0) 0)]; [(fl (-5) 0, fl (2) 0); (fl (3) 0, fl (-1) 0)]]) (cm [[(fl (6) 0, fl (0) 0); (fl (-1) 0, fl (3) 0)]; [(fl (1) 0, fl (-1) 0); (fl (4) 0, fl (0) 0)]]) (gm [[((2)%Z, (1)%Z); ((-7)%Z, (0)%Z)]; [((-5)%Z, (2)%Z); ((3)%Z, (-1)%Z)]]) (gm [[((6)%Z, (0)%Z); ((-1)%Z, (3)%Z)]; [((1)%Z, (-1)%Z); ((4)%Z, (0)%Z)]])); conc|].
  intros u m' (r & K1 & K2). exists r. split; [exact K1|]. apply (K2 1 0); [simpl; lia|simpl; lia|vm_compute; discriminate].
Qed.

(** init + sum x_i y_i *)
Theorem C108_dot : forall prec emax (Hp : FLX.Prec_gt_0 prec) (He : Prec_lt_emax prec emax) recover cdiv (m : mem (ieee_c prec emax Hp He recover cdiv)) x y f g (init : ieee_c prec emax Hp He recover cdiv) (q : nat -> gauss) (s : nat -> gauss) (z0 : gauss),
  vext x = vext y -> vec_holds m x f -> vec_holds m y g ->
  (forall i, i < vext x -> gauss_valued (f i) (q i)) ->
  (forall i, i < vext y -> gauss_valued (g i) (s i)) ->
  gauss_valued init z0 ->
  succeeds (dot x y init) m (fun r _ => fits_in prec (size (z0) + zsum (vext x) (fun k => size (q k) * size (s k)))%Z -> gauss_valued r (sum_from (z0) 0 (vext x) (fun k => q k * s k)%sc)).
Proof. exact dot_gauss. Qed.
Print Assumptions C108_dot.
Example C108_dot_case : succeeds (dot (vec_at 8 2) (vec_at 12 2) ((fl (-1) 0, fl (5) 0) : CC)) gauss_mem (fun r _ => gauss_valued (r : CC) ((-23)%Z, (6)%Z)).
Proof.
  eapply wp_conseq; [apply (C108_dot 53 1024 prec53 emax1024 (fun x _ => x) (fun x _ => x) gauss_mem (vec_at 8 2) (vec_at 12 2) (cv [(fl (-1) 0, fl (2) 0); (fl (3) 0, fl (0) 0)]) (cv [(fl (0) 0, fl (2) 0); (fl (-6) 0, fl (1) 0)]) ((fl (-1) 0, fl (5) 0) : CC) (gv [((-1)%Z, (2)%Z); ((3)%Z, (0)%Z)]) (gv [((0)%Z, (2)%Z); ((-6)%Z, (1)%Z)]) ((-1)%Z, (5)%Z)); conc|].
  intros r m' K. apply K. vm_compute. discriminate.
Qed.

(** init + sum conj(x_i) y_i *)
Theorem C108_dotc : forall prec emax (Hp : FLX.Prec_gt_0 prec) (He : Prec_lt_emax prec emax) recover cdiv (m : mem (ieee_c prec emax Hp He recover cdiv)) fix_nc x y f g (init : ieee_c prec emax Hp He recover cdiv) (q : nat -> gauss) (s : nat -> gauss) (z0 : gauss),
  vext x = vext y -> vec_holds m x f -> vec_holds m y g ->
  (forall i, i < vext x -> gauss_valued (f i) (q i)) ->
  (forall i, i < vext y -> gauss_valued (g i) (s i)) ->
  gauss_valued init z0 ->
  succeeds (dotc fix_nc false x y init) m (fun r _ => fits_in prec (size (z0) + zsum (vext x) (fun k => size (q k) * size (s k)))%Z -> gauss_valued r (sum_from (z0) 0 (vext x) (fun k => conj (q k) * s k)%sc)).
Proof. exact dotc_gauss. Qed.
Print Assumptions C108_dotc.
Example C108_dotc_case : succeeds (dotc true false (vec_at 8 2) (vec_at 12 2) ((fl (-1) 0, fl (5) 0) : CC)) gauss_mem (fun r _ => gauss_valued (r : CC) ((-15)%Z, (6)%Z)).
Proof.
  eapply wp_conseq; [apply (C108_dotc 53 1024 prec53 emax1024 (fun x _ => x) (fun x _ => x) gauss_mem true (vec_at 8 2) (vec_at 12 2) (cv [(fl (-1) 0, fl (2) 0); (fl (3) 0, fl (0) 0)]) (cv [(fl (0) 0, fl (2) 0); (fl (-6) 0, fl (1) 0)]) ((fl (-1) 0, fl (5) 0) : CC) (gv [((-1)%Z, (2)%Z); ((3)%Z, (0)%Z)]) (gv [((0)%Z, (2)%Z); ((-6)%Z, (1)%Z)]) ((-1)%Z, (5)%Z)); conc|].
  intros r m' K. apply K. vm_compute. discriminate.
Qed.

(** y = A x *)
Theorem C108_gemv : forall prec emax (Hp : FLX.Prec_gt_0 prec) (He : Prec_lt_emax prec emax) recover cdiv (m : mem (ieee_c prec emax Hp He recover cdiv)) A x y a f (q : nat -> gauss) (p : nat -> nat -> gauss),
  vext x = ext1 A -> vext y = ext0 A ->
  mat_holds m A a -> vec_holds m x f -> vwritable y -> allocated m (vcells y) ->
  disjoint (mcells A) (vcells y) -> disjoint (vcells x) (vcells y) ->
  (forall i, i < vext x -> gauss_valued (f i) (q i)) ->
  (forall i j, i < ext0 A -> j < ext1 A -> gauss_valued (a i j) (p i j)) ->
  succeeds (matrix_vector_product A x y) m (fun _ m' => exists r, vec_holds m' y r /\ forall i, i < vext y ->
    fits_in prec (zsum (ext1 A) (fun k => size (p i k) * size (q k)))%Z -> gauss_valued (r i) (bigsum (ext1 A) (fun k => p i k * q k)%sc)).
Proof. exact gemv_gauss. Qed.
Print Assumptions C108_gemv.
Example C108_gemv_case : succeeds (matrix_vector_product (row_major 0 2 2) (vec_at 8 2) (vec_at 10 2)) gauss_mem (fun _ m' => exists r, vec_holds m' (vec_at 10 2) r /\ gauss_valued (r 1 : CC) ((10)%Z, (-15)%Z)).
Proof.
  eapply wp_conseq; [apply (C108_gemv 53 1024 prec53 emax1024 (fun x _ => x) (fun x _ => x) gauss_mem (row_major 0 2 2) (vec_at 8 2) (vec_at 10 2) (cm [[(fl (2) 0, fl (1) 0); (fl (-7) 0, fl (0) 0)]; [(fl (-5) 0, fl (2) 0); (fl (3) 0, fl (-1) 0)]]) (cv [(fl (-1) 0, fl (2) 0); (fl (3) 0, fl (0) 0)]) (gv [((-1)%Z, (2)%Z); ((3)%Z, (0)%Z)]) (gm [[((2)%Z, (1)%Z); ((-7)%Z, (0)%Z)]; [((-5)%Z, (2)%Z); ((3)%Z, (-1)%Z)]])); conc|].
  intros u m' (r & K1 & K2). exists r. split; [exact K1|]. apply (K2 1); [simpl; lia|vm_compute; discriminate].
Qed.

(** z = y + A x *)
Theorem C108_gemv_upd : forall prec emax (Hp : FLX.Prec_gt_0 prec) (He : Prec_lt_emax prec emax) recover cdiv (m : mem (ieee_c prec emax Hp He recover cdiv)) A x y z a f g (q : nat -> gauss) (s : nat -> gauss) (p : nat -> nat -> gauss),
  vext x = ext1 A -> vext y = ext0 A -> vext z = ext0 A ->
  mat_holds m A a -> vec_holds m x f -> vec_holds m y g -> vwritable z -> allocated m (vcells z) ->
  disjoint (mcells A) (vcells z) -> disjoint (vcells x) (vcells z) -> disjoint_or_aligned_v y z ->
  (forall i, i < vext x -> gauss_valued (f i) (q i)) ->
  (forall i, i < vext y -> gauss_valued (g i) (s i)) ->
  (forall i j, i < ext0 A -> j < ext1 A -> gauss_valued (a i j) (p i j)) ->
  succeeds (matrix_vector_product_upd A x y z) m (fun _ m' => exists r, vec_holds m' z r /\ forall i, i < vext z ->
    fits_in prec (size (s i) + zsum (ext1 A) (fun k => size (p i k) * size (q k)))%Z -> gauss_valued (r i) (sum_from (s i) 0 (ext1 A) (fun k => p i k * q k)%sc)).
Proof. exact gemv_upd_gauss. Qed.
Print Assumptions C108_gemv_upd.
Example C108_gemv_upd_case : succeeds (matrix_vector_product_upd (row_major 0 2 2) (vec_at 8 2) (vec_at 10 2) (vec_at 12 2)) gauss_mem (fun _ m' => exists r, vec_holds m' (vec_at 12 2) r /\ gauss_valued (r 1 : CC) ((5)%Z, (-15)%Z)).
Proof.
  eapply wp_conseq; [apply (C108_gemv_upd 53 1024 prec53 emax1024 (fun x _ => x) (fun x _ => x) gauss_mem (row_major 0 2 2) (vec_at 8 2) (vec_at 10 2) (vec_at 12 2) (cm [[(fl (2) 0, fl (1) 0); (fl (-7) 0, fl (0) 0)]; [(fl (-5) 0, fl (2) 0); (fl (3) 0, fl (-1) 0)]]) (cv [(fl (-1) 0, fl (2) 0); (fl (3) 0, fl (0) 0)]) (cv [(fl (4) 0, fl (-4) 0); (fl (-5) 0, fl (0) 0)]) (gv [((-1)%Z, (2)%Z); ((3)%Z, (0)%Z)]) (gv [((4)%Z, (-4)%Z); ((-5)%Z, (0)%Z)]) (gm [[((2)%Z, (1)%Z); ((-7)%Z, (0)%Z)]; [((-5)%Z, (2)%Z); ((3)%Z, (-1)%Z)]])); conc|].
  intros u m' (r & K1 & K2). exists r. split; [exact K1|]. apply (K2 1); [simpl; lia|vm_compute; discriminate].
Qed.

(** y = A x, A symmetric *)
Theorem C108_symv : forall prec emax (Hp : FLX.Prec_gt_0 prec) (He : Prec_lt_emax prec emax) recover cdiv (m : mem (ieee_c prec emax Hp He recover cdiv)) A t x y a f (q : nat -> gauss) (p : nat -> nat -> gauss),
  ext0 A = ext1 A -> vext x = ext1 A -> vext y = ext0 A ->
  mat_holds_on m A (in_tri t) a -> vec_holds m x f -> vwritable y -> allocated m (vcells y) ->
  disjoint (mcells_on A (in_tri t)) (vcells y) -> disjoint (vcells x) (vcells y) ->
  (forall i, i < vext x -> gauss_valued (f i) (q i)) ->
  (forall i j, i < ext0 A -> j < ext1 A -> in_tri t i j -> gauss_valued (a i j) (p i j)) ->
  succeeds (symmetric_matrix_vector_product A t x y) m (fun _ m' => exists r, vec_holds m' y r /\ forall i, i < vext y ->
    fits_in prec (zsum (ext1 A) (fun k => size (sym_of t p i k) * size (q k)))%Z -> gauss_valued (r i) (bigsum (ext1 A) (fun k => sym_of t p i k * q k)%sc)).
Proof. exact symv_gauss. Qed.
Print Assumptions C108_symv.
Example C108_symv_case : succeeds (symmetric_matrix_vector_product (row_major 0 2 2) Lower (vec_at 8 2) (vec_at 10 2)) gauss_mem (fun _ m' => exists r, vec_holds m' (vec_at 10 2) r /\ gauss_valued (r 1 : CC) ((10)%Z, (-15)%Z)).
Proof.
  eapply wp_conseq; [apply (C108_symv 53 1024 prec53 emax1024 (fun x _ => x) (fun x _ => x) gauss_mem (row_major 0 2 2) Lower (vec_at 8 2) (vec_at 10 2) (cm [[(fl (2) 0, fl (1) 0); (fl (-7) 0, fl (0) 0)]; [(fl (-5) 0, fl (2) 0); (fl (3) 0, fl (-1) 0)]]) (cv [(fl (-1) 0, fl (2) 0); (fl (3) 0, fl (0) 0)]) (gv [((-1)%Z, (2)%Z); ((3)%Z, (0)%Z)]) (gm [[((2)%Z, (1)%Z); ((-7)%Z, (0)%Z)]; [((-5)%Z, (2)%Z); ((3)%Z, (-1)%Z)]])); conc|].
  intros u m' (r & K1 & K2). exists r. split; [exact K1|]. apply (K2 1); [simpl; lia|vm_compute; discriminate].
Qed.

(** z = y + A x, A symmetric *)
Theorem C108_symv_upd : forall prec emax (Hp : FLX.Prec_gt_0 prec) (He : Prec_lt_emax prec emax) recover cdiv (m : mem (ieee_c prec emax Hp He recover cdiv)) A t x y z a f g (q : nat -> gauss) (s : nat -> gauss) (p : nat -> nat -> gauss),
  ext0 A = ext1 A -> vext x = ext1 A -> vext y = ext0 A -> vext z = ext0 A ->
  mat_holds_on m A (in_tri t) a -> vec_holds m x f -> vec_holds m y g -> vwritable z -> allocated m (vcells z) ->
  disjoint (mcells_on A (in_tri t)) (vcells z) -> disjoint (vcells x) (vcells z) -> disjoint_or_aligned_v y z ->
  (forall i, i < vext x -> gauss_valued (f i) (q i)) ->
  (forall i, i < vext y -> gauss_valued (g i) (s i)) ->
  (forall i j, i < ext0 A -> j < ext1 A -> in_tri t i j -> gauss_valued (a i j) (p i j)) ->
  succeeds (symmetric_matrix_vector_product_upd A t x y z) m (fun _ m' => exists r, vec_holds m' z r /\ forall i, i < vext z ->
    fits_in prec (size (s i) + zsum (ext1 A) (fun k => size (sym_of t p i k) * size (q k)))%Z -> gauss_valued (r i) (sum_from (s i) 0 (ext1 A) (fun k => sym_of t p i k * q k)%sc)).
Proof. exact symv_upd_gauss. Qed.
Print Assumptions C108_symv_upd.
Example C108_symv_upd_case : succeeds (symmetric_matrix_vector_product_upd (row_major 0 2 2) Lower (vec_at 8 2) (vec_at 10 2) (vec_at 12 2)) gauss_mem (fun _ m' => exists r, vec_holds m' (vec_at 12 2) r /\ gauss_valued (r 1 : CC) ((5)%Z, (-15)%Z)).
Proof.
  eapply wp_conseq; [apply (C108_symv_upd 53 1024 prec53 emax1024 (fun x _ => x) (fun x _ => x) gauss_mem (row_major 0 2 2) Lower (vec_at 8 2) (vec_at 10 2) (vec_at 12 2) (cm [[(fl (2) 0, fl (1) 0); (fl (-7) 0, fl (0) 0)]; [(fl (-5) 0, fl (2) 0); (fl (3) 0, fl (-1) 0)]]) (cv [(fl (-1) 0, fl (2) 0); (fl (3) 0, fl (0) 0)]) (cv [(fl (4) 0, fl (-4) 0); (fl (-5) 0, fl (0) 0)]) (gv [((-1)%Z, (2)%Z); ((3)%Z, (0)%Z)]) (gv [((4)%Z, (-4)%Z); ((-5)%Z, (0)%Z)]) (gm [[((2)%Z, (1)%Z); ((-7)%Z, (0)%Z)]; [((-5)%Z, (2)%Z); ((3)%Z, (-1)%Z)]])); conc|].
  intros u m' (r & K1 & K2). exists r. split; [exact K1|]. apply (K2 1); [simpl; lia|vm_compute; discriminate].
Qed.

(** y = A x, A Hermitian *)
Theorem C108_hemv : forall prec emax (Hp : FLX.Prec_gt_0 prec) (He : Prec_lt_emax prec emax) recover cdiv (m : mem (ieee_c prec emax Hp He recover cdiv)) A t x y a f (q : nat -> gauss) (p : nat -> nat -> gauss),
  ext0 A = ext1 A -> vext x = ext1 A -> vext y = ext0 A ->
  mat_holds_on m A (in_tri t) a -> vec_holds m x f -> vwritable y -> allocated m (vcells y) ->
  disjoint (mcells_on A (in_tri t)) (vcells y) -> disjoint (vcells x) (vcells y) ->
  (forall i, i < vext x -> gauss_valued (f i) (q i)) ->
  (forall i j, i < ext0 A -> j < ext1 A -> in_tri t i j -> gauss_valued (a i j) (p i j)) ->
  succeeds (hermitian_matrix_vector_product A t x y) m (fun _ m' => exists r, vec_holds m' y r /\ forall i, i < vext y ->
    fits_in prec (zsum (ext1 A) (fun k => size (herm_of t p i k) * size (q k)))%Z -> gauss_valued (r i) (bigsum (ext1 A) (fun k => herm_of t p i k * q k)%sc)).
Proof. exact hemv_gauss. Qed.
Print Assumptions C108_hemv.
Example C108_hemv_case : succeeds (hermitian_matrix_vector_product (row_major 0 2 2) Lower (vec_at 8 2) (vec_at 10 2)) gauss_mem (fun _ m' => exists r, vec_holds m' (vec_at 10 2) r /\ gauss_valued (r 1 : CC) ((10)%Z, (-12)%Z)).
Proof.
  eapply wp_conseq; [apply (C108_hemv 53 1024 prec53 emax1024 (fun x _ => x) (fun x _ => x) gauss_mem (row_major 0 2 2) Lower (vec_at 8 2) (vec_at 10 2) (cm [[(fl (2) 0, fl (1) 0); (fl (-7) 0, fl (0) 0)]; [(fl (-5) 0, fl (2) 0); (fl (3) 0, fl (-1) 0)]]) (cv [(fl (-1) 0, fl (2) 0); (fl (3) 0, fl (0) 0)]) (gv [((-1)%Z, (2)%Z); ((3)%Z, (0)%Z)]) (gm [[((2)%Z, (1)%Z); ((-7)%Z, (0)%Z)]; [((-5)%Z, (2)%Z); ((3)%Z, (-1)%Z)]])); conc|].
  intros u m' (r & K1 & K2). exists r. split; [exact K1|]. apply (K2 1); [simpl; lia|vm_compute; discriminate].
Qed.

(** z = y + A x, A Hermitian *)
Theorem C108_hemv_upd : forall prec emax (Hp : FLX.Prec_gt_0 prec) (He : Prec_lt_emax prec emax) recover cdiv (m : mem (ieee_c prec emax Hp He recover cdiv)) A t x y z a f g (q : nat -> gauss) (s : nat -> gauss) (p : nat -> nat -> gauss),
  ext0 A = ext1 A -> vext x = ext1 A -> vext y = ext0 A -> vext z = ext0 A ->
  mat_holds_on m A (in_tri t) a -> vec_holds m x f -> vec_holds m y g -> vwritable z -> allocated m (vcells z) ->
  disjoint (mcells_on A (in_tri t)) (vcells z) -> disjoint (vcells x) (vcells z) -> disjoint_or_aligned_v y z ->
  (forall i, i < vext x -> gauss_valued (f i) (q i)) ->
  (forall i, i < vext y -> gauss_valued (g i) (s i)) ->
  (forall i j, i < ext0 A -> j < ext1 A -> in_tri t i j -> gauss_valued (a i j) (p i j)) ->
  succeeds (hermitian_matrix_vector_product_upd A t x y z) m (fun _ m' => exists r, vec_holds m' z r /\ forall i, i < vext z ->
    fits_in prec (size (s i) + zsum (ext1 A) (fun k => size (herm_of t p i k) * size (q k)))%Z -> gauss_valued (r i) (sum_from (s i) 0 (ext1 A) (fun k => herm_of t p i k * q k)%sc)).
Proof. exact hemv_upd_gauss. Qed.
Print Assumptions C108_hemv_upd.
Example C108_hemv_upd_case : succeeds (hermitian_matrix_vector_product_upd (row_major 0 2 2) Lower (vec_at 8 2) (vec_at 10 2) (vec_at 12 2)) gauss_mem (fun _ m' => exists r, vec_holds m' (vec_at 12 2) r /\ gauss_valued (r 1 : CC) ((5)%Z, (-12)%Z)).
Proof.
  eapply wp_conseq; [apply (C108_hemv_upd 53 1024 prec53 emax1024 (fun x _ => x) (fun x _ => x) gauss_mem (row_major 0 2 2) Lower (vec_at 8 2) (vec_at 10 2) (vec_at 12 2) (cm [[(fl (2) 0, fl (1) 0); (fl (-7) 0, fl (0) 0)]; [(fl (-5) 0, fl (2) 0); (fl (3) 0, fl (-1) 0)]]) (cv [(fl (-1) 0, fl (2) 0); (fl (3) 0, fl (0) 0)]) (cv [(fl (4) 0, fl (-4) 0); (fl (-5) 0, fl (0) 0)]) (gv [((-1)%Z, (2)%Z); ((3)%Z, (0)%Z)]) (gv [((4)%Z, (-4)%Z); ((-5)%Z, (0)%Z)]) (gm [[((2)%Z, (1)%Z); ((-7)%Z, (0)%Z)]; [((-5)%Z, (2)%Z); ((3)%Z, (-1)%Z)]])); conc|].
  intros u m' (r & K1 & K2). exists r. split; [exact K1|]. apply (K2 1); [simpl; lia|vm_compute; discriminate].
Qed.

(** A += x y^T *)
Theorem C108_ger : forall prec emax (Hp : FLX.Prec_gt_0 prec) (He : Prec_lt_emax prec emax) recover cdiv (m : mem (ieee_c prec emax Hp He recover cdiv)) x y A a f g (q : nat -> gauss) (s : nat -> gauss) (p : nat -> nat -> gauss),
  vext x = ext0 A -> vext y = ext1 A ->
  mat_holds m A a -> vec_holds m x f -> vec_holds m y g -> mwritable A ->
  disjoint (vcells x) (mcells A) -> disjoint (vcells y) (mcells A) ->
  (forall i, i < vext x -> gauss_valued (f i) (q i)) ->
  (forall i, i < vext y -> gauss_valued (g i) (s i)) ->
  (forall i j, i < ext0 A -> j < ext1 A -> gauss_valued (a i j) (p i j)) ->
  succeeds (matrix_rank_1_update x y A) m (fun _ m' => exists r, mat_holds m' A r /\ forall i j, i < ext0 A -> j < ext1 A ->
    fits_in prec (size (p i j) + size (q i) * size (s j))%Z -> gauss_valued (r i j) ((p i j + q i * s j)%sc)).
Proof. exact ger_gauss. Qed.
Print Assumptions C108_ger.
Example C108_ger_case : succeeds (matrix_rank_1_update (vec_at 8 2) (vec_at 12 2) (row_major 14 2 2)) gauss_mem (fun _ m' => exists r, mat_holds m' (row_major 14 2 2) r /\ gauss_valued (r 1 0 : CC) ((3)%Z, (6)%Z)).
Proof.
  eapply wp_conseq; [apply (C108_ger 53 1024 prec53 emax1024 (fun x _ => x) (fun x _ => x) gauss_mem (vec_at 8 2) (vec_at 12 2) (row_major 14 2 2) (cm [[(fl (1) 0, fl (0) 0); (fl (-2) 0, fl (1) 0)]; [(fl (3) 0, fl (0) 0); (fl (-4) 0, fl (-2) 0)]]) (cv [(fl (-1) 0, fl (2) 0); (fl (3) 0, fl (0) 0)]) (cv [(fl (0) 0, fl (2) 0); (fl (-6) 0, fl (1) 0)]) (gv [((-1)%Z, (2)%Z); ((3)%Z, (0)%Z)]) (gv [((0)%Z, (2)%Z); ((-6)%Z, (1)%Z)]) (gm [[((1)%Z, (0)%Z); ((-2)%Z, (1)%Z)]; [((3)%Z, (0)%Z); ((-4)%Z, (-2)%Z)]])); conc|].
  intros u m' (r & K1 & K2). exists r. split; [exact K1|]. apply (K2 1 0); [simpl; lia|simpl; lia|vm_compute; discriminate].
Qed.

(** A += x y^H *)
Theorem C108_gerc : forall prec emax (Hp : FLX.Prec_gt_0 prec) (He : Prec_lt_emax prec emax) recover cdiv (m : mem (ieee_c prec emax Hp He recover cdiv)) fix_nc x y A a f g (q : nat -> gauss) (s : nat -> gauss) (p : nat -> nat -> gauss),
  vext x = ext0 A -> vext y = ext1 A ->
  mat_holds m A a -> vec_holds m x f -> vec_holds m y g -> mwritable A ->
  disjoint (vcells x) (mcells A) -> disjoint (vcells y) (mcells A) ->
  (forall i, i < vext x -> gauss_valued (f i) (q i)) ->
  (forall i, i < vext y -> gauss_valued (g i) (s i)) ->
  (forall i j, i < ext0 A -> j < ext1 A -> gauss_valued (a i j) (p i j)) ->
  succeeds (matrix_rank_1_update_c fix_nc false x y A) m (fun _ m' => exists r, mat_holds m' A r /\ forall i j, i < ext0 A -> j < ext1 A ->
    fits_in prec (size (p i j) + size (q i) * size (s j))%Z -> gauss_valued (r i j) ((p i j + q i * conj (s j))%sc)).
Proof. exact gerc_gauss. Qed.
Print Assumptions C108_gerc.
Example C108_gerc_case : succeeds (matrix_rank_1_update_c true false (vec_at 8 2) (vec_at 12 2) (row_major 14 2 2)) gauss_mem (fun _ m' => exists r, mat_holds m' (row_major 14 2 2) r /\ gauss_valued (r 1 0 : CC) ((3)%Z, (-6)%Z)).
Proof.
  eapply wp_conseq; [apply (C108_gerc 53 1024 prec53 emax1024 (fun x _ => x) (fun x _ => x) gauss_mem true (vec_at 8 2) (vec_at 12 2) (row_major 14 2 2) (cm [[(fl (1) 0, fl (0) 0); (fl (-2) 0, fl (1) 0)]; [(fl (3) 0, fl (0) 0); (fl (-4) 0, fl (-2) 0)]]) (cv [(fl (-1) 0, fl (2) 0); (fl (3) 0, fl (0) 0)]) (cv [(fl (0) 0, fl (2) 0); (fl (-6) 0, fl (1) 0)]) (gv [((-1)%Z, (2)%Z); ((3)%Z, (0)%Z)]) (gv [((0)%Z, (2)%Z); ((-6)%Z, (1)%Z)]) (gm [[((1)%Z, (0)%Z); ((-2)%Z, (1)%Z)]; [((3)%Z, (0)%Z); ((-4)%Z, (-2)%Z)]])); conc|].
  intros u m' (r & K1 & K2). exists r. split; [exact K1|]. apply (K2 1 0); [simpl; lia|simpl; lia|vm_compute; discriminate].
Qed.

(** A += x x^T on one triangle *)
Theorem C108_syr : forall prec emax (Hp : FLX.Prec_gt_0 prec) (He : Prec_lt_emax prec emax) recover cdiv (m : mem (ieee_c prec emax Hp He recover cdiv)) x A t a f (q : nat -> gauss) (p : nat -> nat -> gauss),
  ext0 A = ext1 A -> vext x = ext0 A ->
  mat_holds_on m A (in_tri t) a -> vec_holds m x f -> mwritable_on A (in_tri t) ->
  disjoint (vcells x) (mcells_on A (in_tri t)) ->
  (forall i, i < vext x -> gauss_valued (f i) (q i)) ->
  (forall i j, i < ext0 A -> j < ext1 A -> in_tri t i j -> gauss_valued (a i j) (p i j)) ->
  succeeds (symmetric_matrix_rank_1_update x A t) m (fun _ m' => exists r, mat_holds_on m' A (in_tri t) r /\ forall i j, i < ext0 A -> j < ext1 A -> in_tri t i j ->
    fits_in prec (size (p i j) + size (q i) * size (q j))%Z -> gauss_valued (r i j) ((p i j + q i * q j)%sc)).
Proof. exact syr_gauss. Qed.
Print Assumptions C108_syr.
Example C108_syr_case : succeeds (symmetric_matrix_rank_1_update (vec_at 12 2) (row_major 14 2 2) Lower) gauss_mem (fun _ m' => exists r, mat_holds_on m' (row_major 14 2 2) (in_tri Lower) r /\ gauss_valued (r 1 0 : CC) ((1)%Z, (-12)%Z)).
Proof.
  eapply wp_conseq; [apply (C108_syr 53 1024 prec53 emax1024 (fun x _ => x) (fun x _ => x) gauss_mem (vec_at 12 2) (row_major 14 2 2) Lower (cm [[(fl (1) 0, fl (0) 0); (fl (-2) 0, fl (1) 0)]; [(fl (3) 0, fl (0) 0); (fl (-4) 0, fl (-2) 0)]]) (cv [(fl (0) 0, fl (2) 0); (fl (-6) 0, fl (1) 0)]) (gv [((0)%Z, (2)%Z); ((-6)%Z, (1)%Z)]) (gm [[((1)%Z, (0)%Z); ((-2)%Z, (1)%Z)]; [((3)%Z, (0)%Z); ((-4)%Z, (-2)%Z)]])); conc|].
  intros u m' (r & K1 & K2). exists r. split; [exact K1|]. apply (K2 1 0); [simpl; lia|simpl; lia|simpl; lia|vm_compute; discriminate].
Qed.

(** A += x y^T + y x^T on one triangle *)
Theorem C108_syr2 : forall prec emax (Hp : FLX.Prec_gt_0 prec) (He : Prec_lt_emax prec emax) recover cdiv (m : mem (ieee_c prec emax Hp He recover cdiv)) x y A t a f g (q : nat -> gauss) (s : nat -> gauss) (p : nat -> nat -> gauss),
  ext0 A = ext1 A -> vext x = ext0 A -> vext y = ext0 A ->
  mat_holds_on m A (in_tri t) a -> vec_holds m x f -> vec_holds m y g -> mwritable_on A (in_tri t) ->
  disjoint (vcells x) (mcells_on A (in_tri t)) -> disjoint (vcells y) (mcells_on A (in_tri t)) ->
  (forall i, i < vext x -> gauss_valued (f i) (q i)) ->
  (forall i, i < vext y -> gauss_valued (g i) (s i)) ->
  (forall i j, i < ext0 A -> j < ext1 A -> in_tri t i j -> gauss_valued (a i j) (p i j)) ->
  succeeds (symmetric_matrix_rank_2_update x y A t) m (fun _ m' => exists r, mat_holds_on m' A (in_tri t) r /\ forall i j, i < ext0 A -> j < ext1 A -> in_tri t i j ->
    fits_in prec (size (p i j) + (size (q i) * size (s j) + size (s i) * size (q j)))%Z -> gauss_valued (r i j) ((p i j + (q i * s j + s i * q j))%sc)).
Proof. exact syr2_gauss. Qed.
Print Assumptions C108_syr2.
Example C108_syr2_case : succeeds (symmetric_matrix_rank_2_update (vec_at 8 2) (vec_at 12 2) (row_major 14 2 2) Lower) gauss_mem (fun _ m' => exists r, mat_holds_on m' (row_major 14 2 2) (in_tri Lower) r /\ gauss_valued (r 1 0 : CC) ((7)%Z, (-7)%Z)).
Proof.
  eapply wp_conseq; [apply (C108_syr2 53 1024 prec53 emax1024 (fun x _ => x) (fun x _ => x) gauss_mem (vec_at 8 2) (vec_at 12 2) (row_major 14 2 2) Lower (cm [[(fl (1) 0, fl (0) 0); (fl (-2) 0, fl (1) 0)]; [(fl (3) 0, fl (0) 0); (fl (-4) 0, fl (-2) 0)]]) (cv [(fl (-1) 0, fl (2) 0); (fl (3) 0, fl (0) 0)]) (cv [(fl (0) 0, fl (2) 0); (fl (-6) 0, fl (1) 0)]) (gv [((-1)%Z, (2)%Z); ((3)%Z, (0)%Z)]) (gv [((0)%Z, (2)%Z); ((-6)%Z, (1)%Z)]) (gm [[((1)%Z, (0)%Z); ((-2)%Z, (1)%Z)]; [((3)%Z, (0)%Z); ((-4)%Z, (-2)%Z)]])); conc|].
  intros u m' (r & K1 & K2). exists r. split; [exact K1|]. apply (K2 1 0); [simpl; lia|simpl; lia|simpl; lia|vm_compute; discriminate].
Qed.

(** A += x x^H on one triangle *)
Theorem C108_her : forall prec emax (Hp : FLX.Prec_gt_0 prec) (He : Prec_lt_emax prec emax) recover cdiv (m : mem (ieee_c prec emax Hp He recover cdiv)) x A t a f (q : nat -> gauss) (p : nat -> nat -> gauss),
  ext0 A = ext1 A -> vext x = ext0 A ->
  mat_holds_on m A (in_tri t) a -> vec_holds m x f -> mwritable_on A (in_tri t) ->
  disjoint (vcells x) (mcells_on A (in_tri t)) ->
  (forall i, i < vext x -> gauss_valued (f i) (q i)) ->
  (forall i j, i < ext0 A -> j < ext1 A -> in_tri t i j -> gauss_valued (a i j) (p i j)) ->
  succeeds (hermitian_matrix_rank_1_update x A t) m (fun _ m' => exists r, mat_holds_on m' A (in_tri t) r /\ forall i j, i < ext0 A -> j < ext1 A -> in_tri t i j ->
    fits_in prec (size (herm_of t p i j) + size (q i) * size (q j))%Z -> gauss_valued (r i j) ((herm_of t p i j + q i * conj (q j))%sc)).
Proof. exact her_gauss. Qed.
Print Assumptions C108_her.
Example C108_her_case : succeeds (hermitian_matrix_rank_1_update (vec_at 12 2) (row_major 14 2 2) Lower) gauss_mem (fun _ m' => exists r, mat_holds_on m' (row_major 14 2 2) (in_tri Lower) r /\ gauss_valued (r 1 0 : CC) ((5)%Z, (12)%Z)).
Proof.
  eapply wp_conseq; [apply (C108_her 53 1024 prec53 emax1024 (fun x _ => x) (fun x _ => x) gauss_mem (vec_at 12 2) (row_major 14 2 2) Lower (cm [[(fl (1) 0, fl (0) 0); (fl (-2) 0, fl (1) 0)]; [(fl (3) 0, fl (0) 0); (fl (-4) 0, fl (-2) 0)]]) (cv [(fl (0) 0, fl (2) 0); (fl (-6) 0, fl (1) 0)]) (gv [((0)%Z, (2)%Z); ((-6)%Z, (1)%Z)]) (gm [[((1)%Z, (0)%Z); ((-2)%Z, (1)%Z)]; [((3)%Z, (0)%Z); ((-4)%Z, (-2)%Z)]])); conc|].
  intros u m' (r & K1 & K2). exists r. split; [exact K1|]. apply (K2 1 0); [simpl; lia|simpl; lia|simpl; lia|vm_compute; discriminate].
Qed.

(** A += x y^H + y x^H on one triangle *)
Theorem C108_her2 : forall prec emax (Hp : FLX.Prec_gt_0 prec) (He : Prec_lt_emax prec emax) recover cdiv (m : mem (ieee_c prec emax Hp He recover cdiv)) x y A t a f g (q : nat -> gauss) (s : nat -> gauss) (p : nat -> nat -> gauss),
  ext0 A = ext1 A -> vext x = ext0 A -> vext y = ext0 A ->
  mat_holds_on m A (in_tri t) a -> vec_holds m x f -> vec_holds m y g -> mwritable_on A (in_tri t) ->
  disjoint (vcells x) (mcells_on A (in_tri t)) -> disjoint (vcells y) (mcells_on A (in_tri t)) ->
  (forall i, i < vext x -> gauss_valued (f i) (q i)) ->
  (forall i, i < vext y -> gauss_valued (g i) (s i)) ->
  (forall i j, i < ext0 A -> j < ext1 A -> in_tri t i j -> gauss_valued (a i j) (p i j)) ->
  succeeds (hermitian_matrix_rank_2_update x y A t) m (fun _ m' => exists r, mat_holds_on m' A (in_tri t) r /\ forall i j, i < ext0 A -> j < ext1 A -> in_tri t i j ->
    fits_in prec (size (herm_of t p i j) + (size (q i) * size (s j) + size (s i) * size (q j)))%Z -> gauss_valued (r i j) ((herm_of t p i j + (q i * conj (s j) + s i * conj (q j)))%sc)).
Proof. exact her2_gauss. Qed.
Print Assumptions C108_her2.
Example C108_her2_case : succeeds (hermitian_matrix_rank_2_update (vec_at 8 2) (vec_at 12 2) (row_major 14 2 2) Lower) gauss_mem (fun _ m' => exists r, mat_holds_on m' (row_major 14 2 2) (in_tri Lower) r /\ gauss_valued (r 1 0 : CC) ((11)%Z, (5)%Z)).
Proof.
  eapply wp_conseq; [apply (C108_her2 53 1024 prec53 emax1024 (fun x _ => x) (fun x _ => x) gauss_mem (vec_at 8 2) (vec_at 12 2) (row_major 14 2 2) Lower (cm [[(fl (1) 0, fl (0) 0); (fl (-2) 0, fl (1) 0)]; [(fl (3) 0, fl (0) 0); (fl (-4) 0, fl (-2) 0)]]) (cv [(fl (-1) 0, fl (2) 0); (fl (3) 0, fl (0) 0)]) (cv [(fl (0) 0, fl (2) 0); (fl (-6) 0, fl (1) 0)]) (gv [((-1)%Z, (2)%Z); ((3)%Z, (0)%Z)]) (gv [((0)%Z, (2)%Z); ((-6)%Z, (1)%Z)]) (gm [[((1)%Z, (0)%Z); ((-2)%Z, (1)%Z)]; [((3)%Z, (0)%Z); ((-4)%Z, (-2)%Z)]])); conc|].
  intros u m' (r & K1 & K2). exists r. split; [exact K1|]. apply (K2 1 0); [simpl; lia|simpl; lia|simpl; lia|vm_compute; discriminate].
Qed.

(** C = A B *)
Theorem C108_gemm : forall prec emax (Hp : FLX.Prec_gt_0 prec) (He : Prec_lt_emax prec emax) recover cdiv (m : mem (ieee_c prec emax Hp He recover cdiv)) A B C a b (p : nat -> nat -> gauss) (u : nat -> nat -> gauss),
  ext0 C = ext0 A -> ext1 A = ext0 B -> ext1 C = ext1 B ->
  mat_holds m A a -> mat_holds m B b -> mwritable C -> allocated m (mcells C) ->
  disjoint (mcells A) (mcells C) -> disjoint (mcells B) (mcells C) ->
  (forall i j, i < ext0 A -> j < ext1 A -> gauss_valued (a i j) (p i j)) ->
  (forall i j, i < ext0 B -> j < ext1 B -> gauss_valued (b i j) (u i j)) ->
  succeeds (matrix_product A B C) m (fun _ m' => exists r, mat_holds m' C r /\ forall i j, i < ext0 C -> j < ext1 C ->
    fits_in prec (zsum (ext1 A) (fun k => size (p i k) * size (u k j)))%Z -> gauss_valued (r i j) (bigsum (ext1 A) (fun k => p i k * u k j)%sc)).
Proof. exact gemm_gauss. Qed.
Print Assumptions C108_gemm.
Example C108_gemm_case : succeeds (matrix_product (row_major 0 2 2) (row_major 4 2 2) (row_major 14 2 2)) gauss_mem (fun _ m' => exists r, mat_holds m' (row_major 14 2 2) r /\ gauss_valued (r 1 0 : CC) ((-28)%Z, (8)%Z)).
Proof.
  eapply wp_conseq; [apply (C108_gemm 53 1024 prec53 emax1024 (fun x _ => x) (fun x _ => x) gauss_mem (row_major 0 2 2) (row_major 4 2 2) (row_major 14 2 2) (cm [[(fl (2) 0, fl (1) 0); (fl (-7) 0, fl (0) 0)]; [(fl (-5) 0, fl (2) 0); (fl (3) 0, fl (-1) 0)]]) (cm [[(fl (6) 0, fl (0) 0); (fl (-1) 0, fl (3) 0)]; [(fl (1) 0, fl (-1) 0); (fl (4) 0, fl (0) 0)]]) (gm [[((2)%Z, (1)%Z); ((-7)%Z, (0)%Z)]; [((-5)%Z, (2)%Z); ((3)%Z, (-1)%Z)]]) (gm [[((6)%Z, (0)%Z); ((-1)%Z, (3)%Z)]; [((1)%Z, (-1)%Z); ((4)%Z, (0)%Z)]])); conc|].
  intros u m' (r & K1 & K2). exists r. split; [exact K1|]. apply (K2 1 0); [simpl; lia|simpl; lia|vm_compute; discriminate].
Qed.

(** C = E + A B *)
Theorem C108_gemm_upd : forall prec emax (Hp : FLX.Prec_gt_0 prec) (He : Prec_lt_emax prec emax) recover cdiv (m : mem (ieee_c prec emax Hp He recover cdiv)) A B E C a b e (p : nat -> nat -> gauss) (u : nat -> nat -> gauss) (w : nat -> nat -> gauss),
  ext0 C = ext0 A -> ext1 A = ext0 B -> ext1 C = ext1 B -> ext0 E = ext0 C -> ext1 E = ext1 C ->
  mat_holds m A a -> mat_holds m B b -> mat_holds m E e -> mwritable C -> allocated m (mcells C) ->
  disjoint (mcells A) (mcells C) -> disjoint (mcells B) (mcells C) -> disjoint_or_aligned_m E C ->
  (forall i j, i < ext0 A -> j < ext1 A -> gauss_valued (a i j) (p i j)) ->
  (forall i j, i < ext0 B -> j < ext1 B -> gauss_valued (b i j) (u i j)) ->
  (forall i j, i < ext0 E -> j < ext1 E -> gauss_valued (e i j) (w i j)) ->
  succeeds (matrix_product_upd A B E C) m (fun _ m' => exists r, mat_holds m' C r /\ forall i j, i < ext0 C -> j < ext1 C ->
    fits_in prec (size (w i j) + zsum (ext1 A) (fun k => size (p i k) * size (u k j)))%Z -> gauss_valued (r i j) (sum_from (w i j) 0 (ext1 A) (fun k => p i k * u k j)%sc)).
Proof. exact gemm_upd_gauss. Qed.
Print Assumptions C108_gemm_upd.
Example C108_gemm_upd_case : succeeds (matrix_product_upd (row_major 0 2 2) (row_major 4 2 2) (row_major 14 2 2) (row_major 18 2 2)) gauss_mem (fun _ m' => exists r, mat_holds m' (row_major 18 2 2) r /\ gauss_valued (r 1 0 : CC) ((-25)%Z, (8)%Z)).
Proof.
  eapply wp_conseq; [apply (C108_gemm_upd 53 1024 prec53 emax1024 (fun x _ => x) (fun x _ => x) gauss_mem (row_major 0 2 2) (row_major 4 2 2) (row_major 14 2 2) (row_major 18 2 2) (cm [[(fl (2) 0, fl (1) 0); (fl (-7) 0, fl (0) 0)]; [(fl (-5) 0, fl (2) 0); (fl (3) 0, fl (-1) 0)]]) (cm [[(fl (6) 0, fl (0) 0); (fl (-1) 0, fl (3) 0)]; [(fl (1) 0, fl (-1) 0); (fl (4) 0, fl (0) 0)]]) (cm [[(fl (1) 0, fl (0) 0); (fl (-2) 0, fl (1) 0)]; [(fl (3) 0, fl (0) 0); (fl (-4) 0, fl (-2) 0)]]) (gm [[((2)%Z, (1)%Z); ((-7)%Z, (0)%Z)]; [((-5)%Z, (2)%Z); ((3)%Z, (-1)%Z)]]) (gm [[((6)%Z, (0)%Z); ((-1)%Z, (3)%Z)]; [((1)%Z, (-1)%Z); ((4)%Z, (0)%Z)]]) (gm [[((1)%Z, (0)%Z); ((-2)%Z, (1)%Z)]; [((3)%Z, (0)%Z); ((-4)%Z, (-2)%Z)]])); conc|].
  intros u m' (r & K1 & K2). exists r. split; [exact K1|]. apply (K2 1 0); [simpl; lia|simpl; lia|vm_compute; discriminate].
Qed.

(** C = A B, A symmetric *)
Theorem C108_symm_left : forall prec emax (Hp : FLX.Prec_gt_0 prec) (He : Prec_lt_emax prec emax) recover cdiv (m : mem (ieee_c prec emax Hp He recover cdiv)) A t B C a b (u : nat -> nat -> gauss) (p : nat -> nat -> gauss),
  ext0 A = ext1 A -> ext0 C = ext0 A -> ext1 A = ext0 B -> ext1 C = ext1 B ->
  mat_holds_on m A (in_tri t) a -> mat_holds m B b -> mwritable C -> allocated m (mcells C) ->
  disjoint (mcells_on A (in_tri t)) (mcells C) -> disjoint (mcells B) (mcells C) ->
  (forall i j, i < ext0 B -> j < ext1 B -> gauss_valued (b i j) (u i j)) ->
  (forall i j, i < ext0 A -> j < ext1 A -> in_tri t i j -> gauss_valued (a i j) (p i j)) ->
  succeeds (symmetric_matrix_product_left A t B C) m (fun _ m' => exists r, mat_holds m' C r /\ forall i j, i < ext0 C -> j < ext1 C ->
    fits_in prec (zsum (ext1 A) (fun k => size (sym_of t p i k) * size (u k j)))%Z -> gauss_valued (r i j) (bigsum (ext1 A) (fun k => sym_of t p i k * u k j)%sc)).
Proof. exact symm_left_gauss. Qed.
Print Assumptions C108_symm_left.
Example C108_symm_left_case : succeeds (symmetric_matrix_product_left (row_major 0 2 2) Lower (row_major 4 2 2) (row_major 14 2 2)) gauss_mem (fun _ m' => exists r, mat_holds m' (row_major 14 2 2) r /\ gauss_valued (r 1 0 : CC) ((-28)%Z, (8)%Z)).
Proof.
  eapply wp_conseq; [apply (C108_symm_left 53 1024 prec53 emax1024 (fun x _ => x) (fun x _ => x) gauss_mem (row_major 0 2 2) Lower (row_major 4 2 2) (row_major 14 2 2) (cm [[(fl (2) 0, fl (1) 0); (fl (-7) 0, fl (0) 0)]; [(fl (-5) 0, fl (2) 0); (fl (3) 0, fl (-1) 0)]]) (cm [[(fl (6) 0, fl (0) 0); (fl (-1) 0, fl (3) 0)]; [(fl (1) 0, fl (-1) 0); (fl (4) 0, fl (0) 0)]]) (gm [[((6)%Z, (0)%Z); ((-1)%Z, (3)%Z)]; [((1)%Z, (-1)%Z); ((4)%Z, (0)%Z)]]) (gm [[((2)%Z, (1)%Z); ((-7)%Z, (0)%Z)]; [((-5)%Z, (2)%Z); ((3)%Z, (-1)%Z)]])); conc|].
  intros u m' (r & K1 & K2). exists r. split; [exact K1|]. apply (K2 1 0); [simpl; lia|simpl; lia|vm_compute; discriminate].
Qed.

(** C = B A, A symmetric *)
Theorem C108_symm_right : forall prec emax (Hp : FLX.Prec_gt_0 prec) (He : Prec_lt_emax prec emax) recover cdiv (m : mem (ieee_c prec emax Hp He recover cdiv)) B A t C a b (u : nat -> nat -> gauss) (p : nat -> nat -> gauss),
  ext0 A = ext1 A -> ext0 C = ext0 B -> ext1 B = ext0 A -> ext1 C = ext1 A ->
  mat_holds_on m A (in_tri t) a -> mat_holds m B b -> mwritable C -> allocated m (mcells C) ->
  disjoint (mcells_on A (in_tri t)) (mcells C) -> disjoint (mcells B) (mcells C) ->
  (forall i j, i < ext0 B -> j < ext1 B -> gauss_valued (b i j) (u i j)) ->
  (forall i j, i < ext0 A -> j < ext1 A -> in_tri t i j -> gauss_valued (a i j) (p i j)) ->
  succeeds (symmetric_matrix_product_right B A t C) m (fun _ m' => exists r, mat_holds m' C r /\ forall i j, i < ext0 C -> j < ext1 C ->
    fits_in prec (zsum (ext1 A) (fun k => size (u i k) * size (sym_of t p k j)))%Z -> gauss_valued (r i j) (bigsum (ext1 A) (fun k => u i k * sym_of t p k j)%sc)).
Proof. exact symm_right_gauss. Qed.
Print Assumptions C108_symm_right.
Example C108_symm_right_case : succeeds (symmetric_matrix_product_right (row_major 4 2 2) (row_major 0 2 2) Lower (row_major 14 2 2)) gauss_mem (fun _ m' => exists r, mat_holds m' (row_major 14 2 2) r /\ gauss_valued (r 1 0 : CC) ((-17)%Z, (7)%Z)).
Proof.
  eapply wp_conseq; [apply (C108_symm_right 53 1024 prec53 emax1024 (fun x _ => x) (fun x _ => x) gauss_mem (row_major 4 2 2) (row_major 0 2 2) Lower (row_major 14 2 2) (cm [[(fl (2) 0, fl (1) 0); (fl (-7) 0, fl (0) 0)]; [(fl (-5) 0, fl (2) 0); (fl (3) 0, fl (-1) 0)]]) (cm [[(fl (6) 0, fl (0) 0); (fl (-1) 0, fl (3) 0)]; [(fl (1) 0, fl (-1) 0); (fl (4) 0, fl (0) 0)]]) (gm [[((6)%Z, (0)%Z); ((-1)%Z, (3)%Z)]; [((1)%Z, (-1)%Z); ((4)%Z, (0)%Z)]]) (gm [[((2)%Z, (1)%Z); ((-7)%Z, (0)%Z)]; [((-5)%Z, (2)%Z); ((3)%Z, (-1)%Z)]])); conc|].
  intros u m' (r & K1 & K2). exists r. split; [exact K1|]. apply (K2 1 0); [simpl; lia|simpl; lia|vm_compute; discriminate].
Qed.

(** C = A B, A Hermitian *)
Theorem C108_hemm_left : forall prec emax (Hp : FLX.Prec_gt_0 prec) (He : Prec_lt_emax prec emax) recover cdiv (m : mem (ieee_c prec emax Hp He recover cdiv)) A t B C a b (u : nat -> nat -> gauss) (p : nat -> nat -> gauss),
  ext0 A = ext1 A -> ext0 C = ext0 A -> ext1 A = ext0 B -> ext1 C = ext1 B ->
  mat_holds_on m A (in_tri t) a -> mat_holds m B b -> mwritable C -> allocated m (mcells C) ->
  disjoint (mcells_on A (in_tri t)) (mcells C) -> disjoint (mcells B) (mcells C) ->
  (forall i j, i < ext0 B -> j < ext1 B -> gauss_valued (b i j) (u i j)) ->
  (forall i j, i < ext0 A -> j < ext1 A -> in_tri t i j -> gauss_valued (a i j) (p i j)) ->
  succeeds (hermitian_matrix_product_left A t B C) m (fun _ m' => exists r, mat_holds m' C r /\ forall i j, i < ext0 C -> j < ext1 C ->
    fits_in prec (zsum (ext1 A) (fun k => size (herm_of t p i k) * size (u k j)))%Z -> gauss_valued (r i j) (bigsum (ext1 A) (fun k => herm_of t p i k * u k j)%sc)).
Proof. exact hemm_left_gauss. Qed.
Print Assumptions C108_hemm_left.
Example C108_hemm_left_case : succeeds (hermitian_matrix_product_left (row_major 0 2 2) Lower (row_major 4 2 2) (row_major 14 2 2)) gauss_mem (fun _ m' => exists r, mat_holds m' (row_major 14 2 2) r /\ gauss_valued (r 1 0 : CC) ((-27)%Z, (9)%Z)).
Proof.
  eapply wp_conseq; [apply (C108_hemm_left 53 1024 prec53 emax1024 (fun x _ => x) (fun x _ => x) gauss_mem (row_major 0 2 2) Lower (row_major 4 2 2) (row_major 14 2 2) (cm [[(fl (2) 0, fl (1) 0); (fl (-7) 0, fl (0) 0)]; [(fl (-5) 0, fl (2) 0); (fl (3) 0, fl (-1) 0)]]) (cm [[(fl (6) 0, fl (0) 0); (fl (-1) 0, fl (3) 0)]; [(fl (1) 0, fl (-1) 0); (fl (4) 0, fl (0) 0)]]) (gm [[((6)%Z, (0)%Z); ((-1)%Z, (3)%Z)]; [((1)%Z, (-1)%Z); ((4)%Z, (0)%Z)]]) (gm [[((2)%Z, (1)%Z); ((-7)%Z, (0)%Z)]; [((-5)%Z, (2)%Z); ((3)%Z, (-1)%Z)]])); conc|].
  intros u m' (r & K1 & K2). exists r. split; [exact K1|]. apply (K2 1 0); [simpl; lia|simpl; lia|vm_compute; discriminate].
Qed.

(** C += A A^T on one triangle *)
Theorem C108_syrk : forall prec emax (Hp : FLX.Prec_gt_0 prec) (He : Prec_lt_emax prec emax) recover cdiv (m : mem (ieee_c prec emax Hp He recover cdiv)) A C t a c (p : nat -> nat -> gauss) (w : nat -> nat -> gauss),
  ext0 C = ext1 C -> ext0 A = ext0 C ->
  mat_holds m A a -> mat_holds_on m C (in_tri t) c -> mwritable_on C (in_tri t) ->
  disjoint (mcells A) (mcells_on C (in_tri t)) ->
  (forall i j, i < ext0 A -> j < ext1 A -> gauss_valued (a i j) (p i j)) ->
  (forall i j, i < ext0 C -> j < ext1 C -> in_tri t i j -> gauss_valued (c i j) (w i j)) ->
  succeeds (symmetric_matrix_rank_k_update A C t) m (fun _ m' => exists r, mat_holds_on m' C (in_tri t) r /\ forall i j, i < ext0 C -> j < ext1 C -> in_tri t i j ->
    fits_in prec (size (w i j) + zsum (ext1 A) (fun k => size (p i k) * size (p j k)))%Z -> gauss_valued (r i j) (sum_from (w i j) 0 (ext1 A) (fun k => p i k * p j k)%sc)).
Proof. exact syrk_gauss. Qed.
Print Assumptions C108_syrk.
Example C108_syrk_case : succeeds (symmetric_matrix_rank_k_update (row_major 0 2 2) (row_major 14 2 2) Lower) gauss_mem (fun _ m' => exists r, mat_holds_on m' (row_major 14 2 2) (in_tri Lower) r /\ gauss_valued (r 1 0 : CC) ((-30)%Z, (6)%Z)).
Proof.
  eapply wp_conseq; [apply (C108_syrk 53 1024 prec53 emax1024 (fun x _ => x) (fun x _ => x) gauss_mem (row_major 0 2 2) (row_major 14 2 2) Lower (cm [[(fl (2) 0, fl (1) 0); (fl (-7) 0, fl (0) 0)]; [(fl (-5) 0, fl (2) 0); (fl (3) 0, fl (-1) 0)]]) (cm [[(fl (1) 0, fl (0) 0); (fl (-2) 0, fl (1) 0)]; [(fl (3) 0, fl (0) 0); (fl (-4) 0, fl (-2) 0)]]) (gm [[((2)%Z, (1)%Z); ((-7)%Z, (0)%Z)]; [((-5)%Z, (2)%Z); ((3)%Z, (-1)%Z)]]) (gm [[((1)%Z, (0)%Z); ((-2)%Z, (1)%Z)]; [((3)%Z, (0)%Z); ((-4)%Z, (-2)%Z)]])); conc|].
  intros u m' (r & K1 & K2). exists r. split; [exact K1|]. apply (K2 1 0); [simpl; lia|simpl; lia|simpl; lia|vm_compute; discriminate].
Qed.

(** C += A A^H on one triangle *)
Theorem C108_herk : forall prec emax (Hp : FLX.Prec_gt_0 prec) (He : Prec_lt_emax prec emax) recover cdiv (m : mem (ieee_c prec emax Hp He recover cdiv)) A C t a c (p : nat -> nat -> gauss) (w : nat -> nat -> gauss),
  ext0 C = ext1 C -> ext0 A = ext0 C ->
  mat_holds m A a -> mat_holds_on m C (in_tri t) c -> mwritable_on C (in_tri t) ->
  disjoint (mcells A) (mcells_on C (in_tri t)) ->
  (forall i j, i < ext0 A -> j < ext1 A -> gauss_valued (a i j) (p i j)) ->
  (forall i j, i < ext0 C -> j < ext1 C -> in_tri t i j -> gauss_valued (c i j) (w i j)) ->
  succeeds (hermitian_matrix_rank_k_update A C t) m (fun _ m' => exists r, mat_holds_on m' C (in_tri t) r /\ forall i j, i < ext0 C -> j < ext1 C -> in_tri t i j ->
    fits_in prec (size (herm_of t w i j) + zsum (ext1 A) (fun k => size (p i k) * size (p j k)))%Z -> gauss_valued (r i j) (sum_from (herm_of t w i j) 0 (ext1 A) (fun k => p i k * conj (p j k))%sc)).
Proof. exact herk_gauss. Qed.
Print Assumptions C108_herk.
Example C108_herk_case : succeeds (hermitian_matrix_rank_k_update (row_major 0 2 2) (row_major 14 2 2) Lower) gauss_mem (fun _ m' => exists r, mat_holds_on m' (row_major 14 2 2) (in_tri Lower) r /\ gauss_valued (r 1 0 : CC) ((-26)%Z, (16)%Z)).
Proof.
  eapply wp_conseq; [apply (C108_herk 53 1024 prec53 emax1024 (fun x _ => x) (fun x _ => x) gauss_mem (row_major 0 2 2) (row_major 14 2 2) Lower (cm [[(fl (2) 0, fl (1) 0); (fl (-7) 0, fl (0) 0)]; [(fl (-5) 0, fl (2) 0); (fl (3) 0, fl (-1) 0)]]) (cm [[(fl (1) 0, fl (0) 0); (fl (-2) 0, fl (1) 0)]; [(fl (3) 0, fl (0) 0); (fl (-4) 0, fl (-2) 0)]]) (gm [[((2)%Z, (1)%Z); ((-7)%Z, (0)%Z)]; [((-5)%Z, (2)%Z); ((3)%Z, (-1)%Z)]]) (gm [[((1)%Z, (0)%Z); ((-2)%Z, (1)%Z)]; [((3)%Z, (0)%Z); ((-4)%Z, (-2)%Z)]])); conc|].
  intros u m' (r & K1 & K2). exists r. split; [exact K1|]. apply (K2 1 0); [simpl; lia|simpl; lia|simpl; lia|vm_compute; discriminate].
Qed.

(** C += A B^T + B A^T on one triangle *)
Theorem C108_syr2k : forall prec emax (Hp : FLX.Prec_gt_0 prec) (He : Prec_lt_emax prec emax) recover cdiv (m : mem (ieee_c prec emax Hp He recover cdiv)) A B C t a b c (p : nat -> nat -> gauss) (u : nat -> nat -> gauss) (w : nat -> nat -> gauss),
  ext0 C = ext1 C -> ext0 A = ext0 C -> ext0 B = ext0 C -> ext1 B = ext1 A ->
  mat_holds m A a -> mat_holds m B b -> mat_holds_on m C (in_tri t) c -> mwritable_on C (in_tri t) ->
  disjoint (mcells A) (mcells_on C (in_tri t)) -> disjoint (mcells B) (mcells_on C (in_tri t)) ->
  (forall i j, i < ext0 A -> j < ext1 A -> gauss_valued (a i j) (p i j)) ->
  (forall i j, i < ext0 B -> j < ext1 B -> gauss_valued (b i j) (u i j)) ->
  (forall i j, i < ext0 C -> j < ext1 C -> in_tri t i j -> gauss_valued (c i j) (w i j)) ->
  succeeds (symmetric_matrix_rank_2k_update A B C t) m (fun _ m' => exists r, mat_holds_on m' C (in_tri t) r /\ forall i j, i < ext0 C -> j < ext1 C -> in_tri t i j ->
    fits_in prec (size (w i j) + zsum (ext1 A) (fun k => size (p i k) * size (u j k) + size (u i k) * size (p j k)))%Z -> gauss_valued (r i j) (sum_from (w i j) 0 (ext1 A) (fun k => p i k * u j k + u i k * p j k)%sc)).
Proof. exact syr2k_gauss. Qed.
Print Assumptions C108_syr2k.
Example C108_syr2k_case : succeeds (symmetric_matrix_rank_2k_update (row_major 0 2 2) (row_major 4 2 2) (row_major 14 2 2) Lower) gauss_mem (fun _ m' => exists r, mat_holds_on m' (row_major 14 2 2) (in_tri Lower) r /\ gauss_valued (r 1 0 : CC) ((-52)%Z, (21)%Z)).
Proof.
  eapply wp_conseq; [apply (C108_syr2k 53 1024 prec53 emax1024 (fun x _ => x) (fun x _ => x) gauss_mem (row_major 0 2 2) (row_major 4 2 2) (row_major 14 2 2) Lower (cm [[(fl (2) 0, fl (1) 0); (fl (-7) 0, fl (0) 0)]; [(fl (-5) 0, fl (2) 0); (fl (3) 0, fl (-1) 0)]]) (cm [[(fl (6) 0, fl (0) 0); (fl (-1) 0, fl (3) 0)]; [(fl (1) 0, fl (-1) 0); (fl (4) 0, fl (0) 0)]]) (cm [[(fl (1) 0, fl (0) 0); (fl (-2) 0, fl (1) 0)]; [(fl (3) 0, fl (0) 0); (fl (-4) 0, fl (-2) 0)]]) (gm [[((2)%Z, (1)%Z); ((-7)%Z, (0)%Z)]; [((-5)%Z, (2)%Z); ((3)%Z, (-1)%Z)]]) (gm [[((6)%Z, (0)%Z); ((-1)%Z, (3)%Z)]; [((1)%Z, (-1)%Z); ((4)%Z, (0)%Z)]]) (gm [[((1)%Z, (0)%Z); ((-2)%Z, (1)%Z)]; [((3)%Z, (0)%Z); ((-4)%Z, (-2)%Z)]])); conc|].
  intros u m' (r & K1 & K2). exists r. split; [exact K1|]. apply (K2 1 0); [simpl; lia|simpl; lia|simpl; lia|vm_compute; discriminate].
Qed.

(** C += A B^H + B A^H on one triangle *)
Theorem C108_her2k : forall prec emax (Hp : FLX.Prec_gt_0 prec) (He : Prec_lt_emax prec emax) recover cdiv (m : mem (ieee_c prec emax Hp He recover cdiv)) A B C t a b c (p : nat -> nat -> gauss) (u : nat -> nat -> gauss) (w : nat -> nat -> gauss),
  ext0 C = ext1 C -> ext0 A = ext0 C -> ext0 B = ext0 C -> ext1 B = ext1 A ->
  mat_holds m A a -> mat_holds m B b -> mat_holds_on m C (in_tri t) c -> mwritable_on C (in_tri t) ->
  disjoint (mcells A) (mcells_on C (in_tri t)) -> disjoint (mcells B) (mcells_on C (in_tri t)) ->
  (forall i j, i < ext0 A -> j < ext1 A -> gauss_valued (a i j) (p i j)) ->
  (forall i j, i < ext0 B -> j < ext1 B -> gauss_valued (b i j) (u i j)) ->
  (forall i j, i < ext0 C -> j < ext1 C -> in_tri t i j -> gauss_valued (c i j) (w i j)) ->
  succeeds (hermitian_matrix_rank_2k_update A B C t) m (fun _ m' => exists r, mat_holds_on m' C (in_tri t) r /\ forall i j, i < ext0 C -> j < ext1 C -> in_tri t i j ->
    fits_in prec (size (herm_of t w i j) + zsum (ext1 A) (fun k => size (p i k) * size (u j k) + size (u i k) * size (p j k)))%Z -> gauss_valued (r i j) (sum_from (herm_of t w i j) 0 (ext1 A) (fun k => p i k * conj (u j k) + u i k * conj (p j k))%sc)).
Proof. exact her2k_gauss. Qed.
Print Assumptions C108_her2k.
Example C108_her2k_case : succeeds (hermitian_matrix_rank_2k_update (row_major 0 2 2) (row_major 4 2 2) (row_major 14 2 2) Lower) gauss_mem (fun _ m' => exists r, mat_holds_on m' (row_major 14 2 2) (in_tri Lower) r /\ gauss_valued (r 1 0 : CC) ((-60)%Z, (1)%Z)).
Proof.
  eapply wp_conseq; [apply (C108_her2k 53 1024 prec53 emax1024 (fun x _ => x) (fun x _ => x) gauss_mem (row_major 0 2 2) (row_major 4 2 2) (row_major 14 2 2) Lower (cm [[(fl (2) 0, fl (1) 0); (fl (-7) 0, fl (0) 0)]; [(fl (-5) 0, fl (2) 0); (fl (3) 0, fl (-1) 0)]]) (cm [[(fl (6) 0, fl (0) 0); (fl (-1) 0, fl (3) 0)]; [(fl (1) 0, fl (-1) 0); (fl (4) 0, fl (0) 0)]]) (cm [[(fl (1) 0, fl (0) 0); (fl (-2) 0, fl (1) 0)]; [(fl (3) 0, fl (0) 0); (fl (-4) 0, fl (-2) 0)]]) (gm [[((2)%Z, (1)%Z); ((-7)%Z, (0)%Z)]; [((-5)%Z, (2)%Z); ((3)%Z, (-1)%Z)]]) (gm [[((6)%Z, (0)%Z); ((-1)%Z, (3)%Z)]; [((1)%Z, (-1)%Z); ((4)%Z, (0)%Z)]]) (gm [[((1)%Z, (0)%Z); ((-2)%Z, (1)%Z)]; [((3)%Z, (0)%Z); ((-4)%Z, (-2)%Z)]])); conc|].
  intros u m' (r & K1 & K2). exists r. split; [exact K1|]. apply (K2 1 0); [simpl; lia|simpl; lia|simpl; lia|vm_compute; discriminate].
Qed.

