(** C81: conversions in elementwise operations, dot, products and the rank-1 update of mixed element types. *)
From Coq Require Import List Arith ZArith Lia Bool.
From Flocq Require Import IEEE754.BinarySingleNaN.
From Verif Require Import Mem Scalar View Spec SpecT Ieee Proxy Typed TypedProd PfTypedProd Inst.
Import ListNotations.

(** copy, scale and add compute in the type of the operands and convert once. *)
Theorem C81_elementwise : forall (L : cpp) z o tY (m : mem (typed_ops L z o)),
  (forall x y f, vext x = vext y -> vec_holds m x f -> vwritable y -> allocated m (vcells y) -> disjoint_or_aligned_v x y ->
    succeeds (typed_copy L z o tY x y) m (fun _ m' =>
      vec_holds m' y (fun i => cast L tY (f i)) /\ changes_only m m' (vcells y))) /\
  (forall alpha x f, vec_holds m x f -> vwritable x ->
    succeeds (typed_scale L z o tY alpha x) m (fun _ m' =>
      vec_holds m' x (fun i => cast L tY (cbin L Times (f i) alpha)) /\ changes_only m m' (vcells x))) /\
  (forall x y v f g, vext x = vext v -> vext y = vext v -> vec_holds m x f -> vec_holds m y g ->
    vwritable v -> allocated m (vcells v) -> disjoint_or_aligned_v x v -> disjoint_or_aligned_v y v ->
    succeeds (typed_add L z o tY x y v) m (fun _ m' =>
      vec_holds m' v (fun i => cast L tY (cbin L Plus (f i) (g i))) /\ changes_only m m' (vcells v))).
Proof.
  exact (fun L z o tY m => Logic.conj (@typed_copy_ok L z o tY m)
    (Logic.conj (@typed_scale_ok L z o tY m) (@typed_add_ok L z o tY m))).
Qed.
Print Assumptions C81_elementwise.

(** dot accumulates in the type of init; without init in the type of a product. *)
Theorem C81_dot : forall (L : cpp) z o (m : mem (typed_ops L z o)) x y f g,
  vext x = vext y -> vec_holds m x f -> vec_holds m y g ->
  (forall tS init, succeeds (typed_dot L z o tS x y init) m (fun r m' =>
    r = typed_sums L tS init (vext x) (fun k => cbin L Times (f k) (g k)) /\ m' = m)) /\
  (forall t1 t2, succeeds (typed_dot_noinit L z o t1 t2 x y) m (fun r m' =>
    r = typed_sums L (mul_type L t1 t2) (cast L (mul_type L t1 t2) z) (vext x) (fun k => cbin L Times (f k) (g k)) /\ m' = m)).
Proof.
  exact (fun L z o m x y f g He Hx Hy => Logic.conj (fun tS init => @typed_dot_ok L z o tS m x y f g init He Hx Hy)
    (fun t1 t2 => @typed_dot_noinit_ok L z o t1 t2 m x y f g He Hx Hy)).
Qed.
Print Assumptions C81_dot.

(** The products accumulate in the element type of the output. *)
Theorem C81_gemv : forall (L : cpp) z o tY (m : mem (typed_ops L z o)) A x y a f,
  vext x = ext1 A -> vext y = ext0 A ->
  mat_holds m A a -> vec_holds m x f -> vwritable y -> allocated m (vcells y) ->
  disjoint (mcells A) (vcells y) -> disjoint (vcells x) (vcells y) ->
  succeeds (typed_gemv L z o tY A x y) m (fun _ m' =>
    vec_holds m' y (fun i => typed_sums L tY (cast L tY z) (ext1 A) (fun j => cbin L Times (a i j) (f j)))
    /\ changes_only m m' (vcells y)).
Proof. exact typed_gemv_ok. Qed.
Print Assumptions C81_gemv.

Theorem C81_gemv_updating : forall (L : cpp) z o tY (m : mem (typed_ops L z o)) A x y v a f g,
  vext x = ext1 A -> vext y = ext0 A -> vext v = ext0 A ->
  mat_holds m A a -> vec_holds m x f -> vec_holds m y g -> vwritable v -> allocated m (vcells v) ->
  disjoint (mcells A) (vcells v) -> disjoint (vcells x) (vcells v) -> disjoint_or_aligned_v y v ->
  succeeds (typed_gemv_upd L z o tY A x y v) m (fun _ m' =>
    vec_holds m' v (fun i => typed_sums L tY (cast L tY (g i)) (ext1 A) (fun j => cbin L Times (a i j) (f j)))
    /\ changes_only m m' (vcells v)).
Proof. exact typed_gemv_upd_ok. Qed.
Print Assumptions C81_gemv_updating.

Theorem C81_gemm : forall (L : cpp) z o tY (m : mem (typed_ops L z o)) A B C a b,
  ext0 C = ext0 A -> ext1 A = ext0 B -> ext1 C = ext1 B ->
  mat_holds m A a -> mat_holds m B b -> mwritable C -> allocated m (mcells C) ->
  disjoint (mcells A) (mcells C) -> disjoint (mcells B) (mcells C) ->
  succeeds (typed_gemm L z o tY A B C) m (fun _ m' =>
    mat_holds m' C (fun i j => typed_sums L tY (cast L tY z) (ext1 A) (fun k => cbin L Times (a i k) (b k j)))
    /\ changes_only m m' (mcells C)).
Proof. exact typed_gemm_ok. Qed.
Print Assumptions C81_gemm.

Theorem C81_gemm_updating : forall (L : cpp) z o tY (m : mem (typed_ops L z o)) A B E C a b e,
  ext0 C = ext0 A -> ext1 A = ext0 B -> ext1 C = ext1 B -> ext0 E = ext0 C -> ext1 E = ext1 C ->
  mat_holds m A a -> mat_holds m B b -> mat_holds m E e -> mwritable C -> allocated m (mcells C) ->
  disjoint (mcells A) (mcells C) -> disjoint (mcells B) (mcells C) -> disjoint_or_aligned_m E C ->
  succeeds (typed_gemm_upd L z o tY A B E C) m (fun _ m' =>
    mat_holds m' C (fun i j => typed_sums L tY (cast L tY (e i j)) (ext1 A) (fun k => cbin L Times (a i k) (b k j)))
    /\ changes_only m m' (mcells C)).
Proof. exact typed_gemm_upd_ok. Qed.
Print Assumptions C81_gemm_updating.

Theorem C81_ger : forall (L : cpp) z o tY (m : mem (typed_ops L z o)) x y A a f g,
  vext x = ext0 A -> vext y = ext1 A ->
  mat_holds m A a -> vec_holds m x f -> vec_holds m y g -> mwritable A ->
  disjoint (vcells x) (mcells A) -> disjoint (vcells y) (mcells A) ->
  succeeds (typed_ger L z o tY x y A) m (fun _ m' =>
    mat_holds m' A (fun i j => cast L tY (cbin L Plus (a i j) (cbin L Times (f i) (g j)))) /\ changes_only m m' (mcells A)).
Proof. exact typed_ger_ok. Qed.
Print Assumptions C81_ger.

(** The result is the sum in the type of its terms, converted once to the output.  Partial: outputs (for dot: init) of a type at
    least as wide as the terms, which is therefore the type of the sum; false for narrower ones (C81_once_refuted). *)
Theorem C81_dot_once_partial : forall (L : cpp) z o, type_laws L -> forall tS t (m : mem (typed_ops L z o)) x y f g init,
  vext x = vext y -> vec_holds m x f -> vec_holds m y g -> type_of L init = tS ->
  (forall i, i < vext x -> type_of L (cbin L Times (f i) (g i)) = t) -> mul_type L tS t = tS ->
  succeeds (typed_dot L z o tS x y init) m (fun r m' =>
    r = plain_sum L init (vext x) (fun k => cbin L Times (f k) (g k)) /\ m' = m).
Proof. exact typed_dot_once. Qed.
Print Assumptions C81_dot_once_partial.

Theorem C81_gemv_once_partial : forall (L : cpp) z o, type_laws L -> forall tY t (m : mem (typed_ops L z o)) A x y a f,
  vext x = ext1 A -> vext y = ext0 A ->
  mat_holds m A a -> vec_holds m x f -> vwritable y -> allocated m (vcells y) ->
  disjoint (mcells A) (vcells y) -> disjoint (vcells x) (vcells y) ->
  (forall i j, i < ext0 A -> j < ext1 A -> type_of L (cbin L Times (a i j) (f j)) = t) -> mul_type L tY t = tY ->
  succeeds (typed_gemv L z o tY A x y) m (fun _ m' =>
    vec_holds m' y (fun i => plain_sum L (cast L tY z) (ext1 A) (fun j => cbin L Times (a i j) (f j)))
    /\ changes_only m m' (vcells y)).
Proof. exact typed_gemv_once. Qed.
Print Assumptions C81_gemv_once_partial.

Theorem C81_gemm_once_partial : forall (L : cpp) z o, type_laws L -> forall tY t (m : mem (typed_ops L z o)) A B C a b,
  ext0 C = ext0 A -> ext1 A = ext0 B -> ext1 C = ext1 B ->
  mat_holds m A a -> mat_holds m B b -> mwritable C -> allocated m (mcells C) ->
  disjoint (mcells A) (mcells C) -> disjoint (mcells B) (mcells C) ->
  (forall i k j, i < ext0 A -> k < ext1 A -> j < ext1 B -> type_of L (cbin L Times (a i k) (b k j)) = t) -> mul_type L tY t = tY ->
  succeeds (typed_gemm L z o tY A B C) m (fun _ m' =>
    mat_holds m' C (fun i j => plain_sum L (cast L tY z) (ext1 A) (fun k => cbin L Times (a i k) (b k j)))
    /\ changes_only m m' (mcells C)).
Proof. exact typed_gemm_once. Qed.
Print Assumptions C81_gemm_once_partial.

(** The types used in the cases obey the laws. *)
Example C81_laws_floats : type_laws floats.
Proof.
  split.
  - intros [] []; reflexivity.
  - intros []; reflexivity.
  - intros p [] []; reflexivity.
Qed.
Example C81_laws_numbers : type_laws numbers.
Proof.
  assert (forall x, num_type_of (int_of x) = TInt) as HI by (intros x; unfold int_of; destruct andb; reflexivity).
  split.
  - intros [] [x|x|[]]; simpl; auto. destruct (is_finite x); auto.
  - intros [x|x|[]]; reflexivity.
  - intros p [x|x|[]] [y|y|[]]; simpl; auto; destruct p; auto. destruct (y =? 0)%Z; auto.
Qed.

Definition f0 : cval floats := VFloat (B754_zero false).
Definition FO : ops := typed_ops floats f0 f0.
Definition fdb (m e : Z) : fd := VDbl (binary_normalize 53 1024 prec53 emax1024 mode_NE m e false).
Definition fft (m e : Z) : fd := VFloat (binary_normalize 24 128 prec24 emax128 mode_NE m e false).
Definition i0 : cval numbers := VInt 0.
Definition NO : ops := typed_ops numbers i0 i0.
Definition nd (m e : Z) : num := VDouble (binary_normalize 53 1024 prec53 emax1024 mode_NE m e false).
Definition holds_cell {L : cpp} {A} (r : res (cval L) A) (c : nat) (v : cval L) : bool :=
  match r with Ok _ m => match m c with Some w => ceq L w v | None => false end | Err _ _ => false end.
Definition gives {L : cpp} (r : res (cval L) (cval L)) (v : cval L) : bool :=
  match r with Ok w _ => ceq L w v | Err _ _ => false end.
(** A = (1, 2^-24, 2^-24) in cells 0-2, x = (1, 1, 1) in 3-5, all double; y float in 6. *)
Definition wide_mem : mem FO := mem_of [fdb 1 0; fdb 1 (-24); fdb 1 (-24); fdb 1 0; fdb 1 0; fdb 1 0; f0; f0].
(** doubles (1/2, 1/2) and (1, 1) *)
Definition half_mem : mem NO := mem_of [nd 1 (-1); nd 1 (-1); nd 1 0; nd 1 0].

(** float y, double A and x: A x = 1 + 2^-23 is a float, but y becomes 1.  And dot of (1/2, 1/2) and (1, 1) with the int init 0
    is 0, with the double init 0 it is 1. *)
Theorem C81_once_refuted :
  (exists (m : mem FO) A x y a f, vext x = ext1 A /\ vext y = ext0 A /\
    mat_holds m A a /\ vec_holds m x f /\ vwritable y /\ allocated m (vcells y) /\
    disjoint (mcells A) (vcells y) /\ disjoint (vcells x) (vcells y) /\
    holds_cell (run (typed_gemv floats f0 f0 TFloat A x y) m) (vaddr y 0)
      (cast floats TFloat (plain_sum floats (fdb 0 0) (ext1 A) (fun j => cbin floats Times (a 0 j) (f j)))) = false /\
    holds_cell (run (typed_gemv floats f0 f0 TFloat A x y) m) (vaddr y 0) (fft 1 0) = true) /\
  (exists (m : mem NO) x y f g, vext x = vext y /\ vec_holds m x f /\ vec_holds m y g /\
    gives (run (typed_dot numbers i0 i0 TInt x y (VInt 0)) m)
      (cast numbers TInt (plain_sum numbers (nd 0 0) (vext x) (fun j => cbin numbers Times (f j) (g j)))) = false /\
    gives (run (typed_dot numbers i0 i0 TInt x y (VInt 0)) m) (VInt 0) = true /\
    gives (run (typed_dot numbers i0 i0 TDouble x y (nd 0 0)) m) (VInt 1) = true).
Proof.
  split.
  - exists wide_mem, (row_major 0 1 3), (vec_at 3 3), (vec_at 6 1),
      (@melt FO [[fdb 1 0; fdb 1 (-24); fdb 1 (-24)]]), (@velt FO [fdb 1 0; fdb 1 0; fdb 1 0]).
    do 2 (split; [reflexivity|]). do 6 (split; [concrete|]). split; vm_compute; reflexivity.
  - exists half_mem, (vec_at 0 2), (vec_at 2 2), (@velt NO [nd 1 (-1); nd 1 (-1)]), (@velt NO [nd 1 0; nd 1 0]).
    split; [reflexivity|]. do 2 (split; [concrete|]). repeat split; vm_compute; reflexivity.
Qed.
Print Assumptions C81_once_refuted.

(** The same A x into a double y: the exact 1 + 2^-23; and the inner product without init. *)
Definition wide_mem_d : mem FO := mem_of [fdb 1 0; fdb 1 (-24); fdb 1 (-24); fdb 1 0; fdb 1 0; fdb 1 0; fdb 0 0; f0].
Example C81_case :
  succeeds (typed_gemv floats f0 f0 TDbl (row_major 0 1 3) (vec_at 3 3) (vec_at 6 1)) wide_mem_d (fun _ m' =>
    vec_holds m' (vec_at 6 1) (fun i => plain_sum floats (cast floats TDbl f0) 3
      (fun j => cbin floats Times (@melt FO [[fdb 1 0; fdb 1 (-24); fdb 1 (-24)]] i j) (@velt FO [fdb 1 0; fdb 1 0; fdb 1 0] j)))
    /\ changes_only wide_mem_d m' (vcells (vec_at 6 1 : vec FO))) /\
  holds_cell (run (typed_gemv floats f0 f0 TDbl (row_major 0 1 3) (vec_at 3 3) (vec_at 6 1)) wide_mem_d) 6 (fdb 8388609 (-23)) = true /\
  gives (run (typed_dot_noinit floats f0 f0 TDbl TDbl (vec_at 0 3) (vec_at 3 3)) wide_mem) (fdb 8388609 (-23)) = true /\
  holds_cell (run (typed_gemv_upd floats f0 f0 TFloat (row_major 0 1 3) (vec_at 3 3) (vec_at 1 1) (vec_at 6 1)) wide_mem) 6 (fft 1 0) = true /\
  holds_cell (run (typed_add floats f0 f0 TFloat (vec_at 0 1) (vec_at 1 1) (vec_at 6 1)) wide_mem) 6 (fft 1 0) = true /\
  holds_cell (run (typed_ger floats f0 f0 TFloat (vec_at 0 1) (vec_at 1 1) (row_major 6 1 1)) wide_mem) 6 (fft 1 (-24)) = true /\
  holds_cell (run (typed_gemm floats f0 f0 TFloat (row_major 0 1 3) (row_major 3 3 1) (row_major 6 1 1)) wide_mem) 6 (fft 1 0) = true.
Proof.
  split.
  - refine (C81_gemv_once_partial floats f0 f0 C81_laws_floats TDbl TDbl wide_mem_d (row_major 0 1 3) (vec_at 3 3) (vec_at 6 1)
      (@melt FO [[fdb 1 0; fdb 1 (-24); fdb 1 (-24)]]) (@velt FO [fdb 1 0; fdb 1 0; fdb 1 0]) _ _ _ _ _ _ _ _ _ _);
      try reflexivity; try concrete.
    intros [|i] [|[|[|j]]] Hi Hj; try (exfalso; cbn in Hi, Hj; lia); reflexivity.
  - vm_compute. repeat split.
Qed.
