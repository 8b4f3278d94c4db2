(** What the calls of KokkosBlas and Kokkos::deep_copy are taken to do (their documentation, i.e. the BLAS).
    KokkosBlas is not part of /repo: [kpre] is what a call requires, [kpost] what it guarantees about the
    memory after it.  Nothing else is assumed, in particular nothing about the order of evaluation.

    The meaning of "L" and "U" is a parameter: [rev = false] is that of the BLAS, [rev = true] exchanges them
    (blas3_matrix_product_kk.hpp:230 claims that KokkosBlas does). *)
From Coq Require Import List Arith NArith Bool.
From Verif Require Import Mem Scalar View Spec KKBlas.
Set Implicit Arguments.
Local Open Scope sc_scope.

Definition uplo_tri (rev : bool) (u : uplo_arg) : triangle :=
  match rev, u with
  | false, UploL | true, UploU => Lower
  | false, UploU | true, UploL => Upper
  end.
Definition diag_of (dg : diag_arg) : diagonal := match dg with DiagN => Explicit | DiagU => ImplicitUnit end.

Section SpecKB.
Context {O : ops}.

Definition op_of (tr : trans_arg) (a : nat -> nat -> O) (i j : nat) : O :=
  match tr with ArgN => a i j | ArgT => a j i end.
Definition op_rows (tr : trans_arg) (A : mat O) : nat := match tr with ArgN => ext0 A | ArgT => ext1 A end.
Definition op_cols (tr : trans_arg) (A : mat O) : nat := match tr with ArgN => ext1 A | ArgT => ext0 A end.

(** A square and X of the right shape for op(A) X (left) or X op(A) (right); only the named triangle of A is
    looked at and X does not overlap it. *)
Definition tri_pre (t : triangle) (d : diagonal) (s : side_arg) (A X : mat O) (m : mem O) : Prop :=
  ext0 A = ext1 A /\ (match s with SideL => ext0 X | SideR => ext1 X end) = ext0 A /\
  allocated m (mcells_on A (stored t d)) /\ allocated m (mcells X) /\ mwritable X /\ macc A = ADefault /\
  disjoint (mcells_on A (stored t d)) (mcells X).

Definition kpre (rev : bool) (c : kcall O) (m : mem O) : Prop :=
  match c with
  | KGemv tr _ A x _ y =>
      op_rows tr A = vext y /\ op_cols tr A = vext x /\
      allocated m (mcells A) /\ allocated m (vcells x) /\ allocated m (vcells y) /\ vwritable y /\
      macc A = ADefault /\ vacc x = ADefault /\
      disjoint (mcells A) (vcells y) /\ disjoint (vcells x) (vcells y)
  | KGemm ta tb _ A B _ C =>
      op_rows ta A = ext0 C /\ op_cols tb B = ext1 C /\ op_cols ta A = op_rows tb B /\
      allocated m (mcells A) /\ allocated m (mcells B) /\ allocated m (mcells C) /\ mwritable C /\
      macc A = ADefault /\ macc B = ADefault /\
      disjoint (mcells A) (mcells C) /\ disjoint (mcells B) (mcells C)
  | KUpdate1 _ x _ y _ z =>
      vext x = vext z /\ vext y = vext z /\
      allocated m (vcells x) /\ allocated m (vcells y) /\ allocated m (vcells z) /\ vwritable z /\
      vacc x = ADefault /\ vacc y = ADefault /\ disjoint_or_aligned_v x z /\ disjoint_or_aligned_v y z
  | KUpdate2 _ x _ y _ z =>
      ext0 x = ext0 z /\ ext1 x = ext1 z /\ ext0 y = ext0 z /\ ext1 y = ext1 z /\
      allocated m (mcells x) /\ allocated m (mcells y) /\ allocated m (mcells z) /\ mwritable z /\
      macc x = ADefault /\ macc y = ADefault /\ disjoint_or_aligned_m x z /\ disjoint_or_aligned_m y z
  | KScal1 r _ x | KCopy1 r x =>
      vext x = vext r /\ allocated m (vcells x) /\ allocated m (vcells r) /\ vwritable r /\
      vacc x = ADefault /\ disjoint_or_aligned_v x r
  | KScal2 r _ x | KCopy2 r x =>
      ext0 x = ext0 r /\ ext1 x = ext1 r /\ allocated m (mcells x) /\ allocated m (mcells r) /\ mwritable r /\
      macc x = ADefault /\ disjoint_or_aligned_m x r
  | KTrmm s u _ dg _ A X => tri_pre (uplo_tri rev u) (diag_of dg) s A X m
  | KTrsm s u _ dg _ A X => tri_pre (uplo_tri rev u) (diag_of dg) s A X m /\
      (dg = DiagN -> forall i v, i < ext0 A -> m (maddr A i i) = Some v -> v <> zero)
  end.

Definition kpost (rev : bool) (c : kcall O) (m m' : mem O) : Prop :=
  match c with
  | KGemv tr alpha A x beta y =>
      (forall a f, mat_holds m A a -> vec_holds m x f ->
        let ax i := alpha * bigsum (vext x) (fun j => op_of tr a i j * f j) in
        (beta = zero -> vec_holds m' y ax) /\
        (forall g, beta <> zero -> vec_holds m y g -> vec_holds m' y (fun i => beta * g i + ax i))) /\
      changes_only m m' (vcells y)
  | KGemm ta tb alpha A B beta C =>
      (forall a b, mat_holds m A a -> mat_holds m B b ->
        let ab i j := alpha * bigsum (op_cols ta A) (fun k => op_of ta a i k * op_of tb b k j) in
        (beta = zero -> mat_holds m' C ab) /\
        (forall c, beta <> zero -> mat_holds m C c -> mat_holds m' C (fun i j => beta * c i j + ab i j))) /\
      changes_only m m' (mcells C)
  | KUpdate1 alpha x beta y gamma z =>
      (forall f g, vec_holds m x f -> vec_holds m y g ->
        let xy i := alpha * f i + beta * g i in
        (gamma = zero -> vec_holds m' z xy) /\
        (forall h, gamma <> zero -> vec_holds m z h -> vec_holds m' z (fun i => gamma * h i + xy i))) /\
      changes_only m m' (vcells z)
  | KUpdate2 alpha x beta y gamma z =>
      (forall f g, mat_holds m x f -> mat_holds m y g ->
        let xy i j := alpha * f i j + beta * g i j in
        (gamma = zero -> mat_holds m' z xy) /\
        (forall h, gamma <> zero -> mat_holds m z h -> mat_holds m' z (fun i j => gamma * h i j + xy i j))) /\
      changes_only m m' (mcells z)
  | KScal1 r alpha x =>
      (forall f, vec_holds m x f -> vec_holds m' r (fun i => alpha * f i)) /\ changes_only m m' (vcells r)
  | KScal2 r alpha x =>
      (forall f, mat_holds m x f -> mat_holds m' r (fun i j => alpha * f i j)) /\ changes_only m m' (mcells r)
  | KCopy1 r x => (forall f, vec_holds m x f -> vec_holds m' r f) /\ changes_only m m' (vcells r)
  | KCopy2 r x => (forall f, mat_holds m x f -> mat_holds m' r f) /\ changes_only m m' (mcells r)
  | KTrmm s u tr dg alpha A X =>
      let t := uplo_tri rev u in let d := diag_of dg in
      (forall a b, mat_holds_on m A (stored t d) a -> mat_holds m X b ->
        mat_holds m' X (fun i j => alpha *
          match s with
          | SideL => bigsum (ext0 A) (fun k => op_of tr (tri_of t d a) i k * b k j)
          | SideR => bigsum (ext0 A) (fun k => b i k * op_of tr (tri_of t d a) k j)
          end)) /\
      changes_only m m' (mcells X)
  | KTrsm s u tr dg alpha A X =>
      let t := uplo_tri rev u in let d := diag_of dg in
      (forall a b, mat_holds_on m A (stored t d) a -> mat_holds m X b ->
        exists x, mat_holds m' X x /\
          forall i j, i < ext0 X -> j < ext1 X ->
            match s with
            | SideL => bigsum (ext0 A) (fun k => op_of tr (tri_of t d a) i k * x k j)
            | SideR => bigsum (ext0 A) (fun k => x i k * op_of tr (tri_of t d a) k j)
            end = alpha * b i j) /\
      changes_only m m' (mcells X)
  end.

(** The overload compiles, does not throw, every call meets the requirements of the routine and can be
    carried out, and whatever the routines leave behind within their guarantees, the final memory
    satisfies [Q]. *)
Fixpoint kb_ensures (rev : bool) (p : kprog O) (m : mem O) (Q : mem O -> Prop) : Prop :=
  match p with
  | KDone => Q m
  | KThrow | KIllFormed => False
  | KInline q => succeeds q m (fun _ m' => Q m')
  | KCall c k => kpre rev c m /\ (exists m', kpost rev c m m') /\ forall m', kpost rev c m m' -> kb_ensures rev k m' Q
  end.

(** * Returned values *)
(** KokkosBlas::dot conjugates its first argument. *)
Definition dot_post (m : mem O) (x y : vec O) (r : O) : Prop :=
  forall f g, vec_holds m x f -> vec_holds m y g -> r = bigsum (vext x) (fun k => conj (f k) * g k).
(** KokkosBlas::iamax: one-based position of the first element of largest magnitude, 0 for an empty vector. *)
Definition iamax_post {M : Type} (mag : O -> M) (ltb : M -> M -> bool) (m : mem O) (v : vec O) (r : N) : Prop :=
  (vext v = 0 -> r = 0%N) /\
  (0 < vext v -> forall f, vec_holds m v f -> exists k, r = N.of_nat (k + 1) /\ k < vext v /\
    (forall i, i < vext v -> ltb (mag (f k)) (mag (f i)) = false) /\
    (forall i, i < k -> ltb (mag (f i)) (mag (f k)) = true)).

(** The overload returns, and the value satisfies [Q]. *)
Definition kb_returns {R M : Type} (mag : O -> M) (ltb : M -> M -> bool) (p : kval O R) (m : mem O) (Q : R -> Prop) : Prop :=
  match p with
  | KVThrow _ => False
  | KVDot x y k => vext x = vext y /\ (exists r, dot_post m x y r) /\ forall r, dot_post m x y r -> Q (k r)
  | KVIamax v k => (exists r, iamax_post mag ltb m v r) /\ forall r, iamax_post mag ltb m v r -> Q (k r)
  end.
End SpecKB.

(** mdspans of the four layouts that have a Kokkos view, any accessor. *)
Definition viewable_m {O} (A : mat O) : Prop := In (mlay A) (LLeft :: LRight :: LTrans LLeft :: LTrans LRight :: nil).
Definition has_transposed_layout {O} (A : mat O) : Prop := exists l, mlay A = LTrans l.
