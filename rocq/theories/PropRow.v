(** C104: an element of a result is determined by its own row and column of the data: other data (NaN, say), the number of other rows and
    columns, and in general its own place have no influence, in any arithmetic. *)
From Coq Require Import List Arith ZArith Lia Bool.
From Flocq Require Import Core.Core IEEE754.BinarySingleNaN.
From Verif Require Import Mem Scalar View Spec SpecSub SpecInp Idx Norm Ieee Blas1 Blas2 Blas3 Wp PfRow Inst PropFloat.
Import ListNotations.
Local Open Scope nat_scope.
Local Open Scope sc_scope.

(** Below, the second call of each example has NaN everywhere but where the element compared depends on the data. The first call has, in
    binary64, A = [2 -7; -5 3], B = [6 -1; 1 4], x = (-1, 3), y = (4, -5), w = (2, -6), C = [1 -2; 3 -4], D = 0. *)
Definition whole_mem : mem F64 := (* test data *)
  mem_of [fl (2) 0; fl (-7) 0; fl (-5) 0; fl (3) 0; fl (6) 0; fl (-1) 0; fl (1) 0; fl (4) 0; fl (-1) 0; fl (3) 0; fl (4) 0; fl (-5) 0; fl (2) 0; fl (-6) 0; fl (1) 0; fl (-2) 0; fl (3) 0; fl (-4) 0; fl 0 0; fl 0 0; fl 0 0; fl 0 0].
Definition qnan : F64 := (* test data *)
  (B754_nan : binary_float 53 1024).
Ltac vals := intros; repeat match goal with K : ?k < 2 |- _ => destruct k as [|[|k]]; [| |exfalso; clear - K; lia]; clear K end;
  first [exfalso; unfold stored, in_tri in *; lia | reflexivity].
Ltac conc := unfold whole_mem;
  match goal with
  | |- _ < _ => simpl; lia
  | |- in_tri _ _ _ => simpl; lia
  | |- _ <-> _ => tauto
  | |- _ = _ => reflexivity
  | |- forall k, k < _ -> _ => simpl ext0; simpl ext1; vals
  | |- forall p q, p < _ -> _ => simpl ext0; simpl ext1; vals
  | _ => concrete; try solve [intros; reflexivity | vm_compute; split; discriminate | discriminate | intros; discriminate]
  end.

(** x = alpha x *)
Theorem C104_scale : forall (O : ops) (m1 m2 : mem O) (alpha1 alpha2 : O) x1 x2 f1 f2,
  vec_holds m1 x1 f1 -> vwritable x1 ->
  vec_holds m2 x2 f2 -> vwritable x2 ->
  succeeds (scale_1 alpha1 x1) m1 (fun _ m1' =>
  succeeds (scale_1 alpha2 x2) m2 (fun _ m2' =>
    exists r1 r2, vec_holds m1' x1 r1 /\ vec_holds m2' x2 r2 /\
    forall i1 i2, i1 < vext x1 -> i2 < vext x2 ->
      alpha1 = alpha2 -> f1 i1 = f2 i2 ->
      r1 i1 = r2 i2)).
Proof. exact (@scale_row). Qed.
Print Assumptions C104_scale.
Definition scale_mem : mem F64 := (* test data *)
  mem_of [qnan; qnan; qnan; qnan; qnan; qnan; qnan; qnan; fl (3) 0; qnan; qnan; qnan; qnan; qnan; qnan; qnan; qnan; qnan; fl 0 0; fl 0 0; fl 0 0; fl 0 0].
Example C104_scale_case :
  succeeds (scale_1 (fl (-3) 0) (vec_at 8 2)) whole_mem (fun _ m1' =>
  succeeds (scale_1 (fl (-3) 0) (vec_at 8 2)) scale_mem (fun _ m2' => exists r1 r2, vec_holds m1' (vec_at 8 2) r1 /\ vec_holds m2' (vec_at 8 2) r2 /\ (r1 1 : F64) = r2 0)).
Proof.
  eapply wp_conseq; [apply (C104_scale F64 whole_mem scale_mem (fl (-3) 0) (fl (-3) 0) (vec_at 8 2) (vec_at 8 2) (fv [fl (-1) 0; fl (3) 0]) (fv [fl (3) 0; qnan])); unfold scale_mem; conc|].
  intros u m1' K. eapply wp_conseq; [exact K|]. intros u2 m2' (r1 & r2 & K1 & K2 & K3). exists r1, r2. split; [exact K1|split; [exact K2|]].
  apply K3; conc.
Qed.

(** the same for a matrix *)
Theorem C104_scale_2 : forall (O : ops) (m1 m2 : mem O) (alpha1 alpha2 : O) x1 x2 f1 f2,
  mat_holds m1 x1 f1 -> mwritable x1 ->
  mat_holds m2 x2 f2 -> mwritable x2 ->
  succeeds (scale_2 alpha1 x1) m1 (fun _ m1' =>
  succeeds (scale_2 alpha2 x2) m2 (fun _ m2' =>
    exists r1 r2, mat_holds m1' x1 r1 /\ mat_holds m2' x2 r2 /\
    forall i1 i2 j1 j2, i1 < ext0 x1 -> j1 < ext1 x1 -> i2 < ext0 x2 -> j2 < ext1 x2 ->
      alpha1 = alpha2 -> f1 i1 j1 = f2 i2 j2 ->
      r1 i1 j1 = r2 i2 j2)).
Proof. exact (@scale_2_row). Qed.
Print Assumptions C104_scale_2.
Definition scale_2_mem : mem F64 := (* test data *)
  mem_of [qnan; qnan; qnan; qnan; qnan; fl (1) 0; qnan; qnan; qnan; qnan; qnan; qnan; qnan; qnan; qnan; qnan; qnan; qnan; fl 0 0; fl 0 0; fl 0 0; fl 0 0].
Example C104_scale_2_case :
  succeeds (scale_2 (fl (-3) 0) (row_major 4 2 2)) whole_mem (fun _ m1' =>
  succeeds (scale_2 (fl (-3) 0) (row_major 4 2 2)) scale_2_mem (fun _ m2' => exists r1 r2, mat_holds m1' (row_major 4 2 2) r1 /\ mat_holds m2' (row_major 4 2 2) r2 /\ (r1 1 0 : F64) = r2 0 1)).
Proof.
  eapply wp_conseq; [apply (C104_scale_2 F64 whole_mem scale_2_mem (fl (-3) 0) (fl (-3) 0) (row_major 4 2 2) (row_major 4 2 2) (fm [[fl (6) 0; fl (-1) 0]; [fl (1) 0; fl (4) 0]]) (fm [[qnan; fl (1) 0]; [qnan; qnan]])); unfold scale_2_mem; conc|].
  intros u m1' K. eapply wp_conseq; [exact K|]. intros u2 m2' (r1 & r2 & K1 & K2 & K3). exists r1, r2. split; [exact K1|split; [exact K2|]].
  apply K3; conc.
Qed.

(** z = x + y *)
Theorem C104_add : forall (O : ops) (m1 m2 : mem O) x1 x2 y1 y2 z1 z2 f1 f2 g1 g2,
  vext x1 = vext z1 -> vext y1 = vext z1 -> vec_holds m1 x1 f1 -> vec_holds m1 y1 g1 ->
  vwritable z1 -> allocated m1 (vcells z1) -> disjoint_or_aligned_v x1 z1 -> disjoint_or_aligned_v y1 z1 ->
  vext x2 = vext z2 -> vext y2 = vext z2 -> vec_holds m2 x2 f2 -> vec_holds m2 y2 g2 ->
  vwritable z2 -> allocated m2 (vcells z2) -> disjoint_or_aligned_v x2 z2 -> disjoint_or_aligned_v y2 z2 ->
  succeeds (add_1 x1 y1 z1) m1 (fun _ m1' =>
  succeeds (add_1 x2 y2 z2) m2 (fun _ m2' =>
    exists r1 r2, vec_holds m1' z1 r1 /\ vec_holds m2' z2 r2 /\
    forall i1 i2, i1 < vext z1 -> i2 < vext z2 ->
      f1 i1 = f2 i2 -> g1 i1 = g2 i2 ->
      r1 i1 = r2 i2)).
Proof. exact (@add_row). Qed.
Print Assumptions C104_add.
Definition add_mem : mem F64 := (* test data *)
  mem_of [qnan; qnan; qnan; qnan; qnan; qnan; qnan; qnan; qnan; qnan; fl (-5) 0; qnan; fl (-6) 0; qnan; qnan; qnan; qnan; qnan; fl 0 0; fl 0 0; fl 0 0; fl 0 0].
Example C104_add_case :
  succeeds (add_1 (vec_at 10 2) (vec_at 12 2) (vec_at 8 2)) whole_mem (fun _ m1' =>
  succeeds (add_1 (vec_at 10 2) (vec_at 12 2) (vec_at 8 2)) add_mem (fun _ m2' => exists r1 r2, vec_holds m1' (vec_at 8 2) r1 /\ vec_holds m2' (vec_at 8 2) r2 /\ (r1 1 : F64) = r2 0)).
Proof.
  eapply wp_conseq; [apply (C104_add F64 whole_mem add_mem (vec_at 10 2) (vec_at 10 2) (vec_at 12 2) (vec_at 12 2) (vec_at 8 2) (vec_at 8 2) (fv [fl (4) 0; fl (-5) 0]) (fv [fl (-5) 0; qnan]) (fv [fl (2) 0; fl (-6) 0]) (fv [fl (-6) 0; qnan])); unfold add_mem; conc|].
  intros u m1' K. eapply wp_conseq; [exact K|]. intros u2 m2' (r1 & r2 & K1 & K2 & K3). exists r1, r2. split; [exact K1|split; [exact K2|]].
  apply K3; conc.
Qed.

(** the same for matrices *)
Theorem C104_add_2 : forall (O : ops) (m1 m2 : mem O) x1 x2 y1 y2 z1 z2 f1 f2 g1 g2,
  ext0 x1 = ext0 z1 -> ext1 x1 = ext1 z1 -> ext0 y1 = ext0 z1 -> ext1 y1 = ext1 z1 ->
  mat_holds m1 x1 f1 -> mat_holds m1 y1 g1 ->
  mwritable z1 -> allocated m1 (mcells z1) -> disjoint_or_aligned_m x1 z1 -> disjoint_or_aligned_m y1 z1 ->
  ext0 x2 = ext0 z2 -> ext1 x2 = ext1 z2 -> ext0 y2 = ext0 z2 -> ext1 y2 = ext1 z2 ->
  mat_holds m2 x2 f2 -> mat_holds m2 y2 g2 ->
  mwritable z2 -> allocated m2 (mcells z2) -> disjoint_or_aligned_m x2 z2 -> disjoint_or_aligned_m y2 z2 ->
  succeeds (add_2 x1 y1 z1) m1 (fun _ m1' =>
  succeeds (add_2 x2 y2 z2) m2 (fun _ m2' =>
    exists r1 r2, mat_holds m1' z1 r1 /\ mat_holds m2' z2 r2 /\
    forall i1 i2 j1 j2, i1 < ext0 z1 -> j1 < ext1 z1 -> i2 < ext0 z2 -> j2 < ext1 z2 ->
      f1 i1 j1 = f2 i2 j2 -> g1 i1 j1 = g2 i2 j2 ->
      r1 i1 j1 = r2 i2 j2)).
Proof. exact (@add_2_row). Qed.
Print Assumptions C104_add_2.
Definition add_2_mem : mem F64 := (* test data *)
  mem_of [qnan; fl (-5) 0; qnan; qnan; qnan; qnan; qnan; qnan; qnan; qnan; qnan; qnan; qnan; qnan; qnan; fl (3) 0; qnan; qnan; fl 0 0; fl 0 0; fl 0 0; fl 0 0].
Example C104_add_2_case :
  succeeds (add_2 (row_major 0 2 2) (row_major 14 2 2) (row_major 18 2 2)) whole_mem (fun _ m1' =>
  succeeds (add_2 (row_major 0 2 2) (row_major 14 2 2) (row_major 18 2 2)) add_2_mem (fun _ m2' => exists r1 r2, mat_holds m1' (row_major 18 2 2) r1 /\ mat_holds m2' (row_major 18 2 2) r2 /\ (r1 1 0 : F64) = r2 0 1)).
Proof.
  eapply wp_conseq; [apply (C104_add_2 F64 whole_mem add_2_mem (row_major 0 2 2) (row_major 0 2 2) (row_major 14 2 2) (row_major 14 2 2) (row_major 18 2 2) (row_major 18 2 2) (fm [[fl (2) 0; fl (-7) 0]; [fl (-5) 0; fl (3) 0]]) (fm [[qnan; fl (-5) 0]; [qnan; qnan]]) (fm [[fl (1) 0; fl (-2) 0]; [fl (3) 0; fl (-4) 0]]) (fm [[qnan; fl (3) 0]; [qnan; qnan]])); unfold add_2_mem; conc|].
  intros u m1' K. eapply wp_conseq; [exact K|]. intros u2 m2' (r1 & r2 & K1 & K2 & K3). exists r1, r2. split; [exact K1|split; [exact K2|]].
  apply K3; conc.
Qed.

(** y = A x *)
Theorem C104_gemv : forall (O : ops) (m1 m2 : mem O) A1 A2 x1 x2 y1 y2 a1 a2 f1 f2,
  vext x1 = ext1 A1 -> vext y1 = ext0 A1 ->
  mat_holds m1 A1 a1 -> vec_holds m1 x1 f1 -> vwritable y1 -> allocated m1 (vcells y1) ->
  disjoint (mcells A1) (vcells y1) -> disjoint (vcells x1) (vcells y1) ->
  vext x2 = ext1 A2 -> vext y2 = ext0 A2 ->
  mat_holds m2 A2 a2 -> vec_holds m2 x2 f2 -> vwritable y2 -> allocated m2 (vcells y2) ->
  disjoint (mcells A2) (vcells y2) -> disjoint (vcells x2) (vcells y2) ->
  succeeds (matrix_vector_product A1 x1 y1) m1 (fun _ m1' =>
  succeeds (matrix_vector_product A2 x2 y2) m2 (fun _ m2' =>
    exists r1 r2, vec_holds m1' y1 r1 /\ vec_holds m2' y2 r2 /\
    forall i1 i2, i1 < vext y1 -> i2 < vext y2 ->
      ext1 A1 = ext1 A2 -> (forall k, k < ext1 A1 -> a1 i1 k = a2 i2 k) -> (forall k, k < ext1 A1 -> f1 k = f2 k) ->
      r1 i1 = r2 i2)).
Proof. exact (@gemv_row). Qed.
Print Assumptions C104_gemv.
Definition gemv_mem : mem F64 := (* test data *)
  mem_of [fl (-5) 0; fl (3) 0; qnan; qnan; qnan; qnan; qnan; qnan; fl (-1) 0; fl (3) 0; qnan; qnan; qnan; qnan; qnan; qnan; qnan; qnan; fl 0 0; fl 0 0; fl 0 0; fl 0 0].
Example C104_gemv_case :
  succeeds (matrix_vector_product (row_major 0 2 2) (vec_at 8 2) (vec_at 10 2)) whole_mem (fun _ m1' =>
  succeeds (matrix_vector_product (row_major 0 2 2) (vec_at 8 2) (vec_at 10 2)) gemv_mem (fun _ m2' => exists r1 r2, vec_holds m1' (vec_at 10 2) r1 /\ vec_holds m2' (vec_at 10 2) r2 /\ (r1 1 : F64) = r2 0)).
Proof.
  eapply wp_conseq; [apply (C104_gemv F64 whole_mem gemv_mem (row_major 0 2 2) (row_major 0 2 2) (vec_at 8 2) (vec_at 8 2) (vec_at 10 2) (vec_at 10 2) (fm [[fl (2) 0; fl (-7) 0]; [fl (-5) 0; fl (3) 0]]) (fm [[fl (-5) 0; fl (3) 0]; [qnan; qnan]]) (fv [fl (-1) 0; fl (3) 0]) (fv [fl (-1) 0; fl (3) 0])); unfold gemv_mem; conc|].
  intros u m1' K. eapply wp_conseq; [exact K|]. intros u2 m2' (r1 & r2 & K1 & K2 & K3). exists r1, r2. split; [exact K1|split; [exact K2|]].
  apply K3; conc.
Qed.

(** z = y + A x *)
Theorem C104_gemv_upd : forall (O : ops) (m1 m2 : mem O) A1 A2 x1 x2 y1 y2 z1 z2 a1 a2 f1 f2 g1 g2,
  vext x1 = ext1 A1 -> vext y1 = ext0 A1 -> vext z1 = ext0 A1 ->
  mat_holds m1 A1 a1 -> vec_holds m1 x1 f1 -> vec_holds m1 y1 g1 -> vwritable z1 -> allocated m1 (vcells z1) ->
  disjoint (mcells A1) (vcells z1) -> disjoint (vcells x1) (vcells z1) -> disjoint_or_aligned_v y1 z1 ->
  vext x2 = ext1 A2 -> vext y2 = ext0 A2 -> vext z2 = ext0 A2 ->
  mat_holds m2 A2 a2 -> vec_holds m2 x2 f2 -> vec_holds m2 y2 g2 -> vwritable z2 -> allocated m2 (vcells z2) ->
  disjoint (mcells A2) (vcells z2) -> disjoint (vcells x2) (vcells z2) -> disjoint_or_aligned_v y2 z2 ->
  succeeds (matrix_vector_product_upd A1 x1 y1 z1) m1 (fun _ m1' =>
  succeeds (matrix_vector_product_upd A2 x2 y2 z2) m2 (fun _ m2' =>
    exists r1 r2, vec_holds m1' z1 r1 /\ vec_holds m2' z2 r2 /\
    forall i1 i2, i1 < vext z1 -> i2 < vext z2 ->
      ext1 A1 = ext1 A2 -> (forall k, k < ext1 A1 -> a1 i1 k = a2 i2 k) -> (forall k, k < ext1 A1 -> f1 k = f2 k) -> g1 i1 = g2 i2 ->
      r1 i1 = r2 i2)).
Proof. exact (@gemv_upd_row). Qed.
Print Assumptions C104_gemv_upd.
Definition gemv_upd_mem : mem F64 := (* test data *)
  mem_of [fl (-5) 0; fl (3) 0; qnan; qnan; qnan; qnan; qnan; qnan; fl (-1) 0; fl (3) 0; fl (-5) 0; qnan; qnan; qnan; qnan; qnan; qnan; qnan; fl 0 0; fl 0 0; fl 0 0; fl 0 0].
Example C104_gemv_upd_case :
  succeeds (matrix_vector_product_upd (row_major 0 2 2) (vec_at 8 2) (vec_at 10 2) (vec_at 12 2)) whole_mem (fun _ m1' =>
  succeeds (matrix_vector_product_upd (row_major 0 2 2) (vec_at 8 2) (vec_at 10 2) (vec_at 12 2)) gemv_upd_mem (fun _ m2' => exists r1 r2, vec_holds m1' (vec_at 12 2) r1 /\ vec_holds m2' (vec_at 12 2) r2 /\ (r1 1 : F64) = r2 0)).
Proof.
  eapply wp_conseq; [apply (C104_gemv_upd F64 whole_mem gemv_upd_mem (row_major 0 2 2) (row_major 0 2 2) (vec_at 8 2) (vec_at 8 2) (vec_at 10 2) (vec_at 10 2) (vec_at 12 2) (vec_at 12 2) (fm [[fl (2) 0; fl (-7) 0]; [fl (-5) 0; fl (3) 0]]) (fm [[fl (-5) 0; fl (3) 0]; [qnan; qnan]]) (fv [fl (-1) 0; fl (3) 0]) (fv [fl (-1) 0; fl (3) 0]) (fv [fl (4) 0; fl (-5) 0]) (fv [fl (-5) 0; qnan])); unfold gemv_upd_mem; conc|].
  intros u m1' K. eapply wp_conseq; [exact K|]. intros u2 m2' (r1 & r2 & K1 & K2 & K3). exists r1, r2. split; [exact K1|split; [exact K2|]].
  apply K3; conc.
Qed.

(** y = A x, A symmetric *)
Theorem C104_symv : forall (O : ops) (m1 m2 : mem O) A1 A2 t x1 x2 y1 y2 a1 a2 f1 f2,
  ext0 A1 = ext1 A1 -> vext x1 = ext1 A1 -> vext y1 = ext0 A1 ->
  mat_holds_on m1 A1 (in_tri t) a1 -> vec_holds m1 x1 f1 -> vwritable y1 -> allocated m1 (vcells y1) ->
  disjoint (mcells_on A1 (in_tri t)) (vcells y1) -> disjoint (vcells x1) (vcells y1) ->
  ext0 A2 = ext1 A2 -> vext x2 = ext1 A2 -> vext y2 = ext0 A2 ->
  mat_holds_on m2 A2 (in_tri t) a2 -> vec_holds m2 x2 f2 -> vwritable y2 -> allocated m2 (vcells y2) ->
  disjoint (mcells_on A2 (in_tri t)) (vcells y2) -> disjoint (vcells x2) (vcells y2) ->
  succeeds (symmetric_matrix_vector_product A1 t x1 y1) m1 (fun _ m1' =>
  succeeds (symmetric_matrix_vector_product A2 t x2 y2) m2 (fun _ m2' =>
    exists r1 r2, vec_holds m1' y1 r1 /\ vec_holds m2' y2 r2 /\
    forall i, i < vext y1 -> i < vext y2 ->
      ext1 A1 = ext1 A2 -> (forall p q, p < ext0 A1 -> q < ext1 A1 -> in_tri t p q -> p = i \/ q = i -> a1 p q = a2 p q) -> (forall k, k < ext1 A1 -> f1 k = f2 k) ->
      r1 i = r2 i)).
Proof. exact (@symv_row). Qed.
Print Assumptions C104_symv.
Definition symv_mem : mem F64 := (* test data *)
  mem_of [qnan; qnan; fl (-5) 0; fl (3) 0; qnan; qnan; qnan; qnan; fl (-1) 0; fl (3) 0; qnan; qnan; qnan; qnan; qnan; qnan; qnan; qnan; fl 0 0; fl 0 0; fl 0 0; fl 0 0].
Example C104_symv_case :
  succeeds (symmetric_matrix_vector_product (row_major 0 2 2) Lower (vec_at 8 2) (vec_at 10 2)) whole_mem (fun _ m1' =>
  succeeds (symmetric_matrix_vector_product (row_major 0 2 2) Lower (vec_at 8 2) (vec_at 10 2)) symv_mem (fun _ m2' => exists r1 r2, vec_holds m1' (vec_at 10 2) r1 /\ vec_holds m2' (vec_at 10 2) r2 /\ (r1 1 : F64) = r2 1)).
Proof.
  eapply wp_conseq; [apply (C104_symv F64 whole_mem symv_mem (row_major 0 2 2) (row_major 0 2 2) Lower (vec_at 8 2) (vec_at 8 2) (vec_at 10 2) (vec_at 10 2) (fm [[fl (2) 0; fl (-7) 0]; [fl (-5) 0; fl (3) 0]]) (fm [[qnan; qnan]; [fl (-5) 0; fl (3) 0]]) (fv [fl (-1) 0; fl (3) 0]) (fv [fl (-1) 0; fl (3) 0])); unfold symv_mem; conc|].
  intros u m1' K. eapply wp_conseq; [exact K|]. intros u2 m2' (r1 & r2 & K1 & K2 & K3). exists r1, r2. split; [exact K1|split; [exact K2|]].
  apply K3; conc.
Qed.

(** z = y + A x, A symmetric *)
Theorem C104_symv_upd : forall (O : ops) (m1 m2 : mem O) A1 A2 t x1 x2 y1 y2 z1 z2 a1 a2 f1 f2 g1 g2,
  ext0 A1 = ext1 A1 -> vext x1 = ext1 A1 -> vext y1 = ext0 A1 -> vext z1 = ext0 A1 ->
  mat_holds_on m1 A1 (in_tri t) a1 -> vec_holds m1 x1 f1 -> vec_holds m1 y1 g1 -> vwritable z1 -> allocated m1 (vcells z1) ->
  disjoint (mcells_on A1 (in_tri t)) (vcells z1) -> disjoint (vcells x1) (vcells z1) -> disjoint_or_aligned_v y1 z1 ->
  ext0 A2 = ext1 A2 -> vext x2 = ext1 A2 -> vext y2 = ext0 A2 -> vext z2 = ext0 A2 ->
  mat_holds_on m2 A2 (in_tri t) a2 -> vec_holds m2 x2 f2 -> vec_holds m2 y2 g2 -> vwritable z2 -> allocated m2 (vcells z2) ->
  disjoint (mcells_on A2 (in_tri t)) (vcells z2) -> disjoint (vcells x2) (vcells z2) -> disjoint_or_aligned_v y2 z2 ->
  succeeds (symmetric_matrix_vector_product_upd A1 t x1 y1 z1) m1 (fun _ m1' =>
  succeeds (symmetric_matrix_vector_product_upd A2 t x2 y2 z2) m2 (fun _ m2' =>
    exists r1 r2, vec_holds m1' z1 r1 /\ vec_holds m2' z2 r2 /\
    forall i, i < vext z1 -> i < vext z2 ->
      ext1 A1 = ext1 A2 -> (forall p q, p < ext0 A1 -> q < ext1 A1 -> in_tri t p q -> p = i \/ q = i -> a1 p q = a2 p q) -> (forall k, k < ext1 A1 -> f1 k = f2 k) -> g1 i = g2 i ->
      r1 i = r2 i)).
Proof. exact (@symv_upd_row). Qed.
Print Assumptions C104_symv_upd.
Definition symv_upd_mem : mem F64 := (* test data *)
  mem_of [qnan; qnan; fl (-5) 0; fl (3) 0; qnan; qnan; qnan; qnan; fl (-1) 0; fl (3) 0; qnan; fl (-5) 0; qnan; qnan; qnan; qnan; qnan; qnan; fl 0 0; fl 0 0; fl 0 0; fl 0 0].
Example C104_symv_upd_case :
  succeeds (symmetric_matrix_vector_product_upd (row_major 0 2 2) Lower (vec_at 8 2) (vec_at 10 2) (vec_at 12 2)) whole_mem (fun _ m1' =>
  succeeds (symmetric_matrix_vector_product_upd (row_major 0 2 2) Lower (vec_at 8 2) (vec_at 10 2) (vec_at 12 2)) symv_upd_mem (fun _ m2' => exists r1 r2, vec_holds m1' (vec_at 12 2) r1 /\ vec_holds m2' (vec_at 12 2) r2 /\ (r1 1 : F64) = r2 1)).
Proof.
  eapply wp_conseq; [apply (C104_symv_upd F64 whole_mem symv_upd_mem (row_major 0 2 2) (row_major 0 2 2) Lower (vec_at 8 2) (vec_at 8 2) (vec_at 10 2) (vec_at 10 2) (vec_at 12 2) (vec_at 12 2) (fm [[fl (2) 0; fl (-7) 0]; [fl (-5) 0; fl (3) 0]]) (fm [[qnan; qnan]; [fl (-5) 0; fl (3) 0]]) (fv [fl (-1) 0; fl (3) 0]) (fv [fl (-1) 0; fl (3) 0]) (fv [fl (4) 0; fl (-5) 0]) (fv [qnan; fl (-5) 0])); unfold symv_upd_mem; conc|].
  intros u m1' K. eapply wp_conseq; [exact K|]. intros u2 m2' (r1 & r2 & K1 & K2 & K3). exists r1, r2. split; [exact K1|split; [exact K2|]].
  apply K3; conc.
Qed.

(** y = A x, A Hermitian *)
Theorem C104_hemv : forall (O : ops) (m1 m2 : mem O) A1 A2 t x1 x2 y1 y2 a1 a2 f1 f2,
  ext0 A1 = ext1 A1 -> vext x1 = ext1 A1 -> vext y1 = ext0 A1 ->
  mat_holds_on m1 A1 (in_tri t) a1 -> vec_holds m1 x1 f1 -> vwritable y1 -> allocated m1 (vcells y1) ->
  disjoint (mcells_on A1 (in_tri t)) (vcells y1) -> disjoint (vcells x1) (vcells y1) ->
  ext0 A2 = ext1 A2 -> vext x2 = ext1 A2 -> vext y2 = ext0 A2 ->
  mat_holds_on m2 A2 (in_tri t) a2 -> vec_holds m2 x2 f2 -> vwritable y2 -> allocated m2 (vcells y2) ->
  disjoint (mcells_on A2 (in_tri t)) (vcells y2) -> disjoint (vcells x2) (vcells y2) ->
  succeeds (hermitian_matrix_vector_product A1 t x1 y1) m1 (fun _ m1' =>
  succeeds (hermitian_matrix_vector_product A2 t x2 y2) m2 (fun _ m2' =>
    exists r1 r2, vec_holds m1' y1 r1 /\ vec_holds m2' y2 r2 /\
    forall i, i < vext y1 -> i < vext y2 ->
      ext1 A1 = ext1 A2 -> (forall p q, p < ext0 A1 -> q < ext1 A1 -> in_tri t p q -> p = i \/ q = i -> a1 p q = a2 p q) -> (forall k, k < ext1 A1 -> f1 k = f2 k) ->
      r1 i = r2 i)).
Proof. exact (@hemv_row). Qed.
Print Assumptions C104_hemv.
Definition hemv_mem : mem F64 := (* test data *)
  mem_of [qnan; qnan; fl (-5) 0; fl (3) 0; qnan; qnan; qnan; qnan; fl (-1) 0; fl (3) 0; qnan; qnan; qnan; qnan; qnan; qnan; qnan; qnan; fl 0 0; fl 0 0; fl 0 0; fl 0 0].
Example C104_hemv_case :
  succeeds (hermitian_matrix_vector_product (row_major 0 2 2) Lower (vec_at 8 2) (vec_at 10 2)) whole_mem (fun _ m1' =>
  succeeds (hermitian_matrix_vector_product (row_major 0 2 2) Lower (vec_at 8 2) (vec_at 10 2)) hemv_mem (fun _ m2' => exists r1 r2, vec_holds m1' (vec_at 10 2) r1 /\ vec_holds m2' (vec_at 10 2) r2 /\ (r1 1 : F64) = r2 1)).
Proof.
  eapply wp_conseq; [apply (C104_hemv F64 whole_mem hemv_mem (row_major 0 2 2) (row_major 0 2 2) Lower (vec_at 8 2) (vec_at 8 2) (vec_at 10 2) (vec_at 10 2) (fm [[fl (2) 0; fl (-7) 0]; [fl (-5) 0; fl (3) 0]]) (fm [[qnan; qnan]; [fl (-5) 0; fl (3) 0]]) (fv [fl (-1) 0; fl (3) 0]) (fv [fl (-1) 0; fl (3) 0])); unfold hemv_mem; conc|].
  intros u m1' K. eapply wp_conseq; [exact K|]. intros u2 m2' (r1 & r2 & K1 & K2 & K3). exists r1, r2. split; [exact K1|split; [exact K2|]].
  apply K3; conc.
Qed.

(** z = y + A x, A Hermitian *)
Theorem C104_hemv_upd : forall (O : ops) (m1 m2 : mem O) A1 A2 t x1 x2 y1 y2 z1 z2 a1 a2 f1 f2 g1 g2,
  ext0 A1 = ext1 A1 -> vext x1 = ext1 A1 -> vext y1 = ext0 A1 -> vext z1 = ext0 A1 ->
  mat_holds_on m1 A1 (in_tri t) a1 -> vec_holds m1 x1 f1 -> vec_holds m1 y1 g1 -> vwritable z1 -> allocated m1 (vcells z1) ->
  disjoint (mcells_on A1 (in_tri t)) (vcells z1) -> disjoint (vcells x1) (vcells z1) -> disjoint_or_aligned_v y1 z1 ->
  ext0 A2 = ext1 A2 -> vext x2 = ext1 A2 -> vext y2 = ext0 A2 -> vext z2 = ext0 A2 ->
  mat_holds_on m2 A2 (in_tri t) a2 -> vec_holds m2 x2 f2 -> vec_holds m2 y2 g2 -> vwritable z2 -> allocated m2 (vcells z2) ->
  disjoint (mcells_on A2 (in_tri t)) (vcells z2) -> disjoint (vcells x2) (vcells z2) -> disjoint_or_aligned_v y2 z2 ->
  succeeds (hermitian_matrix_vector_product_upd A1 t x1 y1 z1) m1 (fun _ m1' =>
  succeeds (hermitian_matrix_vector_product_upd A2 t x2 y2 z2) m2 (fun _ m2' =>
    exists r1 r2, vec_holds m1' z1 r1 /\ vec_holds m2' z2 r2 /\
    forall i, i < vext z1 -> i < vext z2 ->
      ext1 A1 = ext1 A2 -> (forall p q, p < ext0 A1 -> q < ext1 A1 -> in_tri t p q -> p = i \/ q = i -> a1 p q = a2 p q) -> (forall k, k < ext1 A1 -> f1 k = f2 k) -> g1 i = g2 i ->
      r1 i = r2 i)).
Proof. exact (@hemv_upd_row). Qed.
Print Assumptions C104_hemv_upd.
Definition hemv_upd_mem : mem F64 := (* test data *)
  mem_of [qnan; qnan; fl (-5) 0; fl (3) 0; qnan; qnan; qnan; qnan; fl (-1) 0; fl (3) 0; qnan; fl (-5) 0; qnan; qnan; qnan; qnan; qnan; qnan; fl 0 0; fl 0 0; fl 0 0; fl 0 0].
Example C104_hemv_upd_case :
  succeeds (hermitian_matrix_vector_product_upd (row_major 0 2 2) Lower (vec_at 8 2) (vec_at 10 2) (vec_at 12 2)) whole_mem (fun _ m1' =>
  succeeds (hermitian_matrix_vector_product_upd (row_major 0 2 2) Lower (vec_at 8 2) (vec_at 10 2) (vec_at 12 2)) hemv_upd_mem (fun _ m2' => exists r1 r2, vec_holds m1' (vec_at 12 2) r1 /\ vec_holds m2' (vec_at 12 2) r2 /\ (r1 1 : F64) = r2 1)).
Proof.
  eapply wp_conseq; [apply (C104_hemv_upd F64 whole_mem hemv_upd_mem (row_major 0 2 2) (row_major 0 2 2) Lower (vec_at 8 2) (vec_at 8 2) (vec_at 10 2) (vec_at 10 2) (vec_at 12 2) (vec_at 12 2) (fm [[fl (2) 0; fl (-7) 0]; [fl (-5) 0; fl (3) 0]]) (fm [[qnan; qnan]; [fl (-5) 0; fl (3) 0]]) (fv [fl (-1) 0; fl (3) 0]) (fv [fl (-1) 0; fl (3) 0]) (fv [fl (4) 0; fl (-5) 0]) (fv [qnan; fl (-5) 0])); unfold hemv_upd_mem; conc|].
  intros u m1' K. eapply wp_conseq; [exact K|]. intros u2 m2' (r1 & r2 & K1 & K2 & K3). exists r1, r2. split; [exact K1|split; [exact K2|]].
  apply K3; conc.
Qed.

(** y = A x, A triangular *)
Theorem C104_trmv : forall (O : ops) (m1 m2 : mem O) A1 A2 t d x1 x2 y1 y2 a1 a2 f1 f2,
  ext0 A1 = ext1 A1 -> vext x1 = ext1 A1 -> vext y1 = ext0 A1 ->
  mat_holds_on m1 A1 (stored t d) a1 -> vec_holds m1 x1 f1 -> vwritable y1 -> allocated m1 (vcells y1) ->
  disjoint (mcells_on A1 (stored t d)) (vcells y1) -> disjoint (vcells x1) (vcells y1) ->
  ext0 A2 = ext1 A2 -> vext x2 = ext1 A2 -> vext y2 = ext0 A2 ->
  mat_holds_on m2 A2 (stored t d) a2 -> vec_holds m2 x2 f2 -> vwritable y2 -> allocated m2 (vcells y2) ->
  disjoint (mcells_on A2 (stored t d)) (vcells y2) -> disjoint (vcells x2) (vcells y2) ->
  succeeds (triangular_matrix_vector_product A1 t d x1 y1) m1 (fun _ m1' =>
  succeeds (triangular_matrix_vector_product A2 t d x2 y2) m2 (fun _ m2' =>
    exists r1 r2, vec_holds m1' y1 r1 /\ vec_holds m2' y2 r2 /\
    forall i, i < vext y1 -> i < vext y2 ->
      ext1 A1 = ext1 A2 -> (forall k, k < ext1 A1 -> stored t d i k -> a1 i k = a2 i k) -> (forall k, k < ext1 A1 -> in_tri t i k -> f1 k = f2 k) ->
      r1 i = r2 i)).
Proof. exact (@trmv_row). Qed.
Print Assumptions C104_trmv.
Definition trmv_mem : mem F64 := (* test data *)
  mem_of [qnan; qnan; fl (-5) 0; fl (3) 0; qnan; qnan; qnan; qnan; fl (-1) 0; fl (3) 0; qnan; qnan; qnan; qnan; qnan; qnan; qnan; qnan; fl 0 0; fl 0 0; fl 0 0; fl 0 0].
Example C104_trmv_case :
  succeeds (triangular_matrix_vector_product (row_major 0 2 2) Lower Explicit (vec_at 8 2) (vec_at 10 2)) whole_mem (fun _ m1' =>
  succeeds (triangular_matrix_vector_product (row_major 0 2 2) Lower Explicit (vec_at 8 2) (vec_at 10 2)) trmv_mem (fun _ m2' => exists r1 r2, vec_holds m1' (vec_at 10 2) r1 /\ vec_holds m2' (vec_at 10 2) r2 /\ (r1 1 : F64) = r2 1)).
Proof.
  eapply wp_conseq; [apply (C104_trmv F64 whole_mem trmv_mem (row_major 0 2 2) (row_major 0 2 2) Lower Explicit (vec_at 8 2) (vec_at 8 2) (vec_at 10 2) (vec_at 10 2) (fm [[fl (2) 0; fl (-7) 0]; [fl (-5) 0; fl (3) 0]]) (fm [[qnan; qnan]; [fl (-5) 0; fl (3) 0]]) (fv [fl (-1) 0; fl (3) 0]) (fv [fl (-1) 0; fl (3) 0])); unfold trmv_mem; conc|].
  intros u m1' K. eapply wp_conseq; [exact K|]. intros u2 m2' (r1 & r2 & K1 & K2 & K3). exists r1, r2. split; [exact K1|split; [exact K2|]].
  apply K3; conc.
Qed.

(** z = y + A x, A triangular *)
Theorem C104_trmv_upd : forall (O : ops) (m1 m2 : mem O) A1 A2 t d x1 x2 y1 y2 z1 z2 a1 a2 f1 f2 g1 g2,
  ext0 A1 = ext1 A1 -> vext x1 = ext1 A1 -> vext y1 = ext0 A1 -> vext z1 = ext0 A1 ->
  mat_holds_on m1 A1 (stored t d) a1 -> vec_holds m1 x1 f1 -> vec_holds m1 y1 g1 -> vwritable z1 -> allocated m1 (vcells z1) ->
  disjoint (mcells_on A1 (stored t d)) (vcells z1) -> disjoint (vcells x1) (vcells z1) -> disjoint_or_aligned_v y1 z1 ->
  ext0 A2 = ext1 A2 -> vext x2 = ext1 A2 -> vext y2 = ext0 A2 -> vext z2 = ext0 A2 ->
  mat_holds_on m2 A2 (stored t d) a2 -> vec_holds m2 x2 f2 -> vec_holds m2 y2 g2 -> vwritable z2 -> allocated m2 (vcells z2) ->
  disjoint (mcells_on A2 (stored t d)) (vcells z2) -> disjoint (vcells x2) (vcells z2) -> disjoint_or_aligned_v y2 z2 ->
  succeeds (triangular_matrix_vector_product_upd A1 t d x1 y1 z1) m1 (fun _ m1' =>
  succeeds (triangular_matrix_vector_product_upd A2 t d x2 y2 z2) m2 (fun _ m2' =>
    exists r1 r2, vec_holds m1' z1 r1 /\ vec_holds m2' z2 r2 /\
    forall i, i < vext z1 -> i < vext z2 ->
      ext1 A1 = ext1 A2 -> (forall k, k < ext1 A1 -> stored t d i k -> a1 i k = a2 i k) -> (forall k, k < ext1 A1 -> in_tri t i k -> f1 k = f2 k) -> g1 i = g2 i ->
      r1 i = r2 i)).
Proof. exact (@trmv_upd_row). Qed.
Print Assumptions C104_trmv_upd.
Definition trmv_upd_mem : mem F64 := (* test data *)
  mem_of [qnan; qnan; fl (-5) 0; fl (3) 0; qnan; qnan; qnan; qnan; fl (-1) 0; fl (3) 0; qnan; fl (-5) 0; qnan; qnan; qnan; qnan; qnan; qnan; fl 0 0; fl 0 0; fl 0 0; fl 0 0].
Example C104_trmv_upd_case :
  succeeds (triangular_matrix_vector_product_upd (row_major 0 2 2) Lower Explicit (vec_at 8 2) (vec_at 10 2) (vec_at 12 2)) whole_mem (fun _ m1' =>
  succeeds (triangular_matrix_vector_product_upd (row_major 0 2 2) Lower Explicit (vec_at 8 2) (vec_at 10 2) (vec_at 12 2)) trmv_upd_mem (fun _ m2' => exists r1 r2, vec_holds m1' (vec_at 12 2) r1 /\ vec_holds m2' (vec_at 12 2) r2 /\ (r1 1 : F64) = r2 1)).
Proof.
  eapply wp_conseq; [apply (C104_trmv_upd F64 whole_mem trmv_upd_mem (row_major 0 2 2) (row_major 0 2 2) Lower Explicit (vec_at 8 2) (vec_at 8 2) (vec_at 10 2) (vec_at 10 2) (vec_at 12 2) (vec_at 12 2) (fm [[fl (2) 0; fl (-7) 0]; [fl (-5) 0; fl (3) 0]]) (fm [[qnan; qnan]; [fl (-5) 0; fl (3) 0]]) (fv [fl (-1) 0; fl (3) 0]) (fv [fl (-1) 0; fl (3) 0]) (fv [fl (4) 0; fl (-5) 0]) (fv [qnan; fl (-5) 0])); unfold trmv_upd_mem; conc|].
  intros u m1' K. eapply wp_conseq; [exact K|]. intros u2 m2' (r1 & r2 & K1 & K2 & K3). exists r1, r2. split; [exact K1|split; [exact K2|]].
  apply K3; conc.
Qed.

(** y = A y, A triangular *)
Theorem C104_trmv_inplace : forall (O : ops) (m1 m2 : mem O) A1 A2 t d y1 y2 a1 a2 f1 f2,
  ext0 A1 = ext1 A1 -> vext y1 = ext0 A1 ->
  mat_holds_on m1 A1 (stored t d) a1 -> vec_holds m1 y1 f1 -> vwritable y1 ->
  disjoint (mcells_on A1 (stored t d)) (vcells y1) ->
  ext0 A2 = ext1 A2 -> vext y2 = ext0 A2 ->
  mat_holds_on m2 A2 (stored t d) a2 -> vec_holds m2 y2 f2 -> vwritable y2 ->
  disjoint (mcells_on A2 (stored t d)) (vcells y2) ->
  succeeds (triangular_matrix_vector_product_inplace A1 t d y1) m1 (fun _ m1' =>
  succeeds (triangular_matrix_vector_product_inplace A2 t d y2) m2 (fun _ m2' =>
    exists r1 r2, vec_holds m1' y1 r1 /\ vec_holds m2' y2 r2 /\
    forall i, i < vext y1 -> i < vext y2 ->
      ext1 A1 = ext1 A2 -> (forall k, k < ext1 A1 -> stored t d i k -> a1 i k = a2 i k) -> (forall k, k < ext1 A1 -> in_tri t i k -> f1 k = f2 k) ->
      r1 i = r2 i)).
Proof. exact (@trmv_inplace_row). Qed.
Print Assumptions C104_trmv_inplace.
Definition trmv_inplace_mem : mem F64 := (* test data *)
  mem_of [qnan; qnan; fl (-5) 0; fl (3) 0; qnan; qnan; qnan; qnan; fl (-1) 0; fl (3) 0; qnan; qnan; qnan; qnan; qnan; qnan; qnan; qnan; fl 0 0; fl 0 0; fl 0 0; fl 0 0].
Example C104_trmv_inplace_case :
  succeeds (triangular_matrix_vector_product_inplace (row_major 0 2 2) Lower Explicit (vec_at 8 2)) whole_mem (fun _ m1' =>
  succeeds (triangular_matrix_vector_product_inplace (row_major 0 2 2) Lower Explicit (vec_at 8 2)) trmv_inplace_mem (fun _ m2' => exists r1 r2, vec_holds m1' (vec_at 8 2) r1 /\ vec_holds m2' (vec_at 8 2) r2 /\ (r1 1 : F64) = r2 1)).
Proof.
  eapply wp_conseq; [apply (C104_trmv_inplace F64 whole_mem trmv_inplace_mem (row_major 0 2 2) (row_major 0 2 2) Lower Explicit (vec_at 8 2) (vec_at 8 2) (fm [[fl (2) 0; fl (-7) 0]; [fl (-5) 0; fl (3) 0]]) (fm [[qnan; qnan]; [fl (-5) 0; fl (3) 0]]) (fv [fl (-1) 0; fl (3) 0]) (fv [fl (-1) 0; fl (3) 0])); unfold trmv_inplace_mem; conc|].
  intros u m1' K. eapply wp_conseq; [exact K|]. intros u2 m2' (r1 & r2 & K1 & K2 & K3). exists r1, r2. split; [exact K1|split; [exact K2|]].
  apply K3; conc.
Qed.

(** A += x y^T *)
Theorem C104_ger : forall (O : ops) (m1 m2 : mem O) x1 x2 y1 y2 A1 A2 a1 a2 f1 f2 g1 g2,
  vext x1 = ext0 A1 -> vext y1 = ext1 A1 ->
  mat_holds m1 A1 a1 -> vec_holds m1 x1 f1 -> vec_holds m1 y1 g1 -> mwritable A1 ->
  disjoint (vcells x1) (mcells A1) -> disjoint (vcells y1) (mcells A1) ->
  vext x2 = ext0 A2 -> vext y2 = ext1 A2 ->
  mat_holds m2 A2 a2 -> vec_holds m2 x2 f2 -> vec_holds m2 y2 g2 -> mwritable A2 ->
  disjoint (vcells x2) (mcells A2) -> disjoint (vcells y2) (mcells A2) ->
  succeeds (matrix_rank_1_update x1 y1 A1) m1 (fun _ m1' =>
  succeeds (matrix_rank_1_update x2 y2 A2) m2 (fun _ m2' =>
    exists r1 r2, mat_holds m1' A1 r1 /\ mat_holds m2' A2 r2 /\
    forall i1 i2 j1 j2, i1 < ext0 A1 -> j1 < ext1 A1 -> i2 < ext0 A2 -> j2 < ext1 A2 ->
      a1 i1 j1 = a2 i2 j2 -> f1 i1 = f2 i2 -> g1 j1 = g2 j2 ->
      r1 i1 j1 = r2 i2 j2)).
Proof. exact (@ger_row). Qed.
Print Assumptions C104_ger.
Definition ger_mem : mem F64 := (* test data *)
  mem_of [qnan; qnan; qnan; qnan; qnan; qnan; qnan; qnan; qnan; fl (-1) 0; qnan; qnan; fl (-6) 0; qnan; qnan; fl (3) 0; qnan; qnan; fl 0 0; fl 0 0; fl 0 0; fl 0 0].
Example C104_ger_case :
  succeeds (matrix_rank_1_update (vec_at 12 2) (vec_at 8 2) (row_major 14 2 2)) whole_mem (fun _ m1' =>
  succeeds (matrix_rank_1_update (vec_at 12 2) (vec_at 8 2) (row_major 14 2 2)) ger_mem (fun _ m2' => exists r1 r2, mat_holds m1' (row_major 14 2 2) r1 /\ mat_holds m2' (row_major 14 2 2) r2 /\ (r1 1 0 : F64) = r2 0 1)).
Proof.
  eapply wp_conseq; [apply (C104_ger F64 whole_mem ger_mem (vec_at 12 2) (vec_at 12 2) (vec_at 8 2) (vec_at 8 2) (row_major 14 2 2) (row_major 14 2 2) (fm [[fl (1) 0; fl (-2) 0]; [fl (3) 0; fl (-4) 0]]) (fm [[qnan; fl (3) 0]; [qnan; qnan]]) (fv [fl (2) 0; fl (-6) 0]) (fv [fl (-6) 0; qnan]) (fv [fl (-1) 0; fl (3) 0]) (fv [qnan; fl (-1) 0])); unfold ger_mem; conc|].
  intros u m1' K. eapply wp_conseq; [exact K|]. intros u2 m2' (r1 & r2 & K1 & K2 & K3). exists r1, r2. split; [exact K1|split; [exact K2|]].
  apply K3; conc.
Qed.

(** A += x y^H *)
Theorem C104_gerc : forall (O : ops) (m1 m2 : mem O) fix_nc nc x1 x2 y1 y2 A1 A2 a1 a2 f1 f2 g1 g2,
  (forall v : O, conj (conj v) = v) -> (nc = true -> forall v : O, conj v = v) ->
  vext x1 = ext0 A1 -> vext y1 = ext1 A1 ->
  mat_holds m1 A1 a1 -> vec_holds m1 x1 f1 -> vec_holds m1 y1 g1 -> mwritable A1 ->
  disjoint (vcells x1) (mcells A1) -> disjoint (vcells y1) (mcells A1) ->
  vext x2 = ext0 A2 -> vext y2 = ext1 A2 ->
  mat_holds m2 A2 a2 -> vec_holds m2 x2 f2 -> vec_holds m2 y2 g2 -> mwritable A2 ->
  disjoint (vcells x2) (mcells A2) -> disjoint (vcells y2) (mcells A2) ->
  succeeds (matrix_rank_1_update_c fix_nc nc x1 y1 A1) m1 (fun _ m1' =>
  succeeds (matrix_rank_1_update_c fix_nc nc x2 y2 A2) m2 (fun _ m2' =>
    exists r1 r2, mat_holds m1' A1 r1 /\ mat_holds m2' A2 r2 /\
    forall i1 i2 j1 j2, i1 < ext0 A1 -> j1 < ext1 A1 -> i2 < ext0 A2 -> j2 < ext1 A2 ->
      a1 i1 j1 = a2 i2 j2 -> f1 i1 = f2 i2 -> g1 j1 = g2 j2 ->
      r1 i1 j1 = r2 i2 j2)).
Proof. exact (@gerc_row). Qed.
Print Assumptions C104_gerc.
Definition gerc_mem : mem F64 := (* test data *)
  mem_of [qnan; qnan; qnan; qnan; qnan; qnan; qnan; qnan; qnan; fl (-1) 0; qnan; qnan; fl (-6) 0; qnan; qnan; fl (3) 0; qnan; qnan; fl 0 0; fl 0 0; fl 0 0; fl 0 0].
Example C104_gerc_case :
  succeeds (matrix_rank_1_update_c true true (vec_at 12 2) (vec_at 8 2) (row_major 14 2 2)) whole_mem (fun _ m1' =>
  succeeds (matrix_rank_1_update_c true true (vec_at 12 2) (vec_at 8 2) (row_major 14 2 2)) gerc_mem (fun _ m2' => exists r1 r2, mat_holds m1' (row_major 14 2 2) r1 /\ mat_holds m2' (row_major 14 2 2) r2 /\ (r1 1 0 : F64) = r2 0 1)).
Proof.
  eapply wp_conseq; [apply (C104_gerc F64 whole_mem gerc_mem true true (vec_at 12 2) (vec_at 12 2) (vec_at 8 2) (vec_at 8 2) (row_major 14 2 2) (row_major 14 2 2) (fm [[fl (1) 0; fl (-2) 0]; [fl (3) 0; fl (-4) 0]]) (fm [[qnan; fl (3) 0]; [qnan; qnan]]) (fv [fl (2) 0; fl (-6) 0]) (fv [fl (-6) 0; qnan]) (fv [fl (-1) 0; fl (3) 0]) (fv [qnan; fl (-1) 0])); unfold gerc_mem; conc|].
  intros u m1' K. eapply wp_conseq; [exact K|]. intros u2 m2' (r1 & r2 & K1 & K2 & K3). exists r1, r2. split; [exact K1|split; [exact K2|]].
  apply K3; conc.
Qed.

(** A += x x^T on one triangle *)
Theorem C104_syr : forall (O : ops) (m1 m2 : mem O) x1 x2 A1 A2 t a1 a2 f1 f2,
  ext0 A1 = ext1 A1 -> vext x1 = ext0 A1 ->
  mat_holds_on m1 A1 (in_tri t) a1 -> vec_holds m1 x1 f1 -> mwritable_on A1 (in_tri t) ->
  disjoint (vcells x1) (mcells_on A1 (in_tri t)) ->
  ext0 A2 = ext1 A2 -> vext x2 = ext0 A2 ->
  mat_holds_on m2 A2 (in_tri t) a2 -> vec_holds m2 x2 f2 -> mwritable_on A2 (in_tri t) ->
  disjoint (vcells x2) (mcells_on A2 (in_tri t)) ->
  succeeds (symmetric_matrix_rank_1_update x1 A1 t) m1 (fun _ m1' =>
  succeeds (symmetric_matrix_rank_1_update x2 A2 t) m2 (fun _ m2' =>
    exists r1 r2, mat_holds_on m1' A1 (in_tri t) r1 /\ mat_holds_on m2' A2 (in_tri t) r2 /\
    forall i1 i2 j1 j2, i1 < ext0 A1 -> j1 < ext1 A1 -> i2 < ext0 A2 -> j2 < ext1 A2 -> in_tri t i1 j1 -> in_tri t i2 j2 ->
      a1 i1 j1 = a2 i2 j2 -> f1 i1 = f2 i2 -> f1 j1 = f2 j2 ->
      r1 i1 j1 = r2 i2 j2)).
Proof. exact (@syr_row). Qed.
Print Assumptions C104_syr.
Definition syr_mem : mem F64 := (* test data *)
  mem_of [qnan; qnan; qnan; qnan; qnan; qnan; fl (1) 0; qnan; qnan; qnan; qnan; qnan; fl (2) 0; fl (-6) 0; qnan; qnan; qnan; qnan; fl 0 0; fl 0 0; fl 0 0; fl 0 0].
Example C104_syr_case :
  succeeds (symmetric_matrix_rank_1_update (vec_at 12 2) (row_major 4 2 2) Lower) whole_mem (fun _ m1' =>
  succeeds (symmetric_matrix_rank_1_update (vec_at 12 2) (row_major 4 2 2) Lower) syr_mem (fun _ m2' => exists r1 r2, mat_holds_on m1' (row_major 4 2 2) (in_tri Lower) r1 /\ mat_holds_on m2' (row_major 4 2 2) (in_tri Lower) r2 /\ (r1 1 0 : F64) = r2 1 0)).
Proof.
  eapply wp_conseq; [apply (C104_syr F64 whole_mem syr_mem (vec_at 12 2) (vec_at 12 2) (row_major 4 2 2) (row_major 4 2 2) Lower (fm [[fl (6) 0; fl (-1) 0]; [fl (1) 0; fl (4) 0]]) (fm [[qnan; qnan]; [fl (1) 0; qnan]]) (fv [fl (2) 0; fl (-6) 0]) (fv [fl (2) 0; fl (-6) 0])); unfold syr_mem; conc|].
  intros u m1' K. eapply wp_conseq; [exact K|]. intros u2 m2' (r1 & r2 & K1 & K2 & K3). exists r1, r2. split; [exact K1|split; [exact K2|]].
  apply K3; conc.
Qed.

(** A += x y^T + y x^T on one triangle *)
Theorem C104_syr2 : forall (O : ops) (m1 m2 : mem O) x1 x2 y1 y2 A1 A2 t a1 a2 f1 f2 g1 g2,
  ext0 A1 = ext1 A1 -> vext x1 = ext0 A1 -> vext y1 = ext0 A1 ->
  mat_holds_on m1 A1 (in_tri t) a1 -> vec_holds m1 x1 f1 -> vec_holds m1 y1 g1 -> mwritable_on A1 (in_tri t) ->
  disjoint (vcells x1) (mcells_on A1 (in_tri t)) -> disjoint (vcells y1) (mcells_on A1 (in_tri t)) ->
  ext0 A2 = ext1 A2 -> vext x2 = ext0 A2 -> vext y2 = ext0 A2 ->
  mat_holds_on m2 A2 (in_tri t) a2 -> vec_holds m2 x2 f2 -> vec_holds m2 y2 g2 -> mwritable_on A2 (in_tri t) ->
  disjoint (vcells x2) (mcells_on A2 (in_tri t)) -> disjoint (vcells y2) (mcells_on A2 (in_tri t)) ->
  succeeds (symmetric_matrix_rank_2_update x1 y1 A1 t) m1 (fun _ m1' =>
  succeeds (symmetric_matrix_rank_2_update x2 y2 A2 t) m2 (fun _ m2' =>
    exists r1 r2, mat_holds_on m1' A1 (in_tri t) r1 /\ mat_holds_on m2' A2 (in_tri t) r2 /\
    forall i1 i2 j1 j2, i1 < ext0 A1 -> j1 < ext1 A1 -> i2 < ext0 A2 -> j2 < ext1 A2 -> in_tri t i1 j1 -> in_tri t i2 j2 ->
      a1 i1 j1 = a2 i2 j2 -> f1 i1 = f2 i2 -> f1 j1 = f2 j2 -> g1 i1 = g2 i2 -> g1 j1 = g2 j2 ->
      r1 i1 j1 = r2 i2 j2)).
Proof. exact (@syr2_row). Qed.
Print Assumptions C104_syr2.
Definition syr2_mem : mem F64 := (* test data *)
  mem_of [qnan; qnan; qnan; qnan; qnan; qnan; qnan; qnan; fl (-1) 0; fl (3) 0; qnan; qnan; fl (2) 0; fl (-6) 0; qnan; qnan; fl (3) 0; qnan; fl 0 0; fl 0 0; fl 0 0; fl 0 0].
Example C104_syr2_case :
  succeeds (symmetric_matrix_rank_2_update (vec_at 12 2) (vec_at 8 2) (row_major 14 2 2) Lower) whole_mem (fun _ m1' =>
  succeeds (symmetric_matrix_rank_2_update (vec_at 12 2) (vec_at 8 2) (row_major 14 2 2) Lower) syr2_mem (fun _ m2' => exists r1 r2, mat_holds_on m1' (row_major 14 2 2) (in_tri Lower) r1 /\ mat_holds_on m2' (row_major 14 2 2) (in_tri Lower) r2 /\ (r1 1 0 : F64) = r2 1 0)).
Proof.
  eapply wp_conseq; [apply (C104_syr2 F64 whole_mem syr2_mem (vec_at 12 2) (vec_at 12 2) (vec_at 8 2) (vec_at 8 2) (row_major 14 2 2) (row_major 14 2 2) Lower (fm [[fl (1) 0; fl (-2) 0]; [fl (3) 0; fl (-4) 0]]) (fm [[qnan; qnan]; [fl (3) 0; qnan]]) (fv [fl (2) 0; fl (-6) 0]) (fv [fl (2) 0; fl (-6) 0]) (fv [fl (-1) 0; fl (3) 0]) (fv [fl (-1) 0; fl (3) 0])); unfold syr2_mem; conc|].
  intros u m1' K. eapply wp_conseq; [exact K|]. intros u2 m2' (r1 & r2 & K1 & K2 & K3). exists r1, r2. split; [exact K1|split; [exact K2|]].
  apply K3; conc.
Qed.

(** A += x x^H on one triangle *)
Theorem C104_her : forall (O : ops) (m1 m2 : mem O) x1 x2 A1 A2 t a1 a2 f1 f2,
  ext0 A1 = ext1 A1 -> vext x1 = ext0 A1 ->
  mat_holds_on m1 A1 (in_tri t) a1 -> vec_holds m1 x1 f1 -> mwritable_on A1 (in_tri t) ->
  disjoint (vcells x1) (mcells_on A1 (in_tri t)) ->
  ext0 A2 = ext1 A2 -> vext x2 = ext0 A2 ->
  mat_holds_on m2 A2 (in_tri t) a2 -> vec_holds m2 x2 f2 -> mwritable_on A2 (in_tri t) ->
  disjoint (vcells x2) (mcells_on A2 (in_tri t)) ->
  succeeds (hermitian_matrix_rank_1_update x1 A1 t) m1 (fun _ m1' =>
  succeeds (hermitian_matrix_rank_1_update x2 A2 t) m2 (fun _ m2' =>
    exists r1 r2, mat_holds_on m1' A1 (in_tri t) r1 /\ mat_holds_on m2' A2 (in_tri t) r2 /\
    forall i1 i2 j1 j2, i1 < ext0 A1 -> j1 < ext1 A1 -> i2 < ext0 A2 -> j2 < ext1 A2 -> in_tri t i1 j1 -> in_tri t i2 j2 ->
      (i1 = j1 <-> i2 = j2) -> a1 i1 j1 = a2 i2 j2 -> f1 i1 = f2 i2 -> f1 j1 = f2 j2 ->
      r1 i1 j1 = r2 i2 j2)).
Proof. exact (@her_row). Qed.
Print Assumptions C104_her.
Definition her_mem : mem F64 := (* test data *)
  mem_of [qnan; qnan; qnan; qnan; qnan; qnan; fl (1) 0; qnan; qnan; qnan; qnan; qnan; fl (2) 0; fl (-6) 0; qnan; qnan; qnan; qnan; fl 0 0; fl 0 0; fl 0 0; fl 0 0].
Example C104_her_case :
  succeeds (hermitian_matrix_rank_1_update (vec_at 12 2) (row_major 4 2 2) Lower) whole_mem (fun _ m1' =>
  succeeds (hermitian_matrix_rank_1_update (vec_at 12 2) (row_major 4 2 2) Lower) her_mem (fun _ m2' => exists r1 r2, mat_holds_on m1' (row_major 4 2 2) (in_tri Lower) r1 /\ mat_holds_on m2' (row_major 4 2 2) (in_tri Lower) r2 /\ (r1 1 0 : F64) = r2 1 0)).
Proof.
  eapply wp_conseq; [apply (C104_her F64 whole_mem her_mem (vec_at 12 2) (vec_at 12 2) (row_major 4 2 2) (row_major 4 2 2) Lower (fm [[fl (6) 0; fl (-1) 0]; [fl (1) 0; fl (4) 0]]) (fm [[qnan; qnan]; [fl (1) 0; qnan]]) (fv [fl (2) 0; fl (-6) 0]) (fv [fl (2) 0; fl (-6) 0])); unfold her_mem; conc|].
  intros u m1' K. eapply wp_conseq; [exact K|]. intros u2 m2' (r1 & r2 & K1 & K2 & K3). exists r1, r2. split; [exact K1|split; [exact K2|]].
  apply K3; conc.
Qed.

(** A += x y^H + y x^H on one triangle *)
Theorem C104_her2 : forall (O : ops) (m1 m2 : mem O) x1 x2 y1 y2 A1 A2 t a1 a2 f1 f2 g1 g2,
  ext0 A1 = ext1 A1 -> vext x1 = ext0 A1 -> vext y1 = ext0 A1 ->
  mat_holds_on m1 A1 (in_tri t) a1 -> vec_holds m1 x1 f1 -> vec_holds m1 y1 g1 -> mwritable_on A1 (in_tri t) ->
  disjoint (vcells x1) (mcells_on A1 (in_tri t)) -> disjoint (vcells y1) (mcells_on A1 (in_tri t)) ->
  ext0 A2 = ext1 A2 -> vext x2 = ext0 A2 -> vext y2 = ext0 A2 ->
  mat_holds_on m2 A2 (in_tri t) a2 -> vec_holds m2 x2 f2 -> vec_holds m2 y2 g2 -> mwritable_on A2 (in_tri t) ->
  disjoint (vcells x2) (mcells_on A2 (in_tri t)) -> disjoint (vcells y2) (mcells_on A2 (in_tri t)) ->
  succeeds (hermitian_matrix_rank_2_update x1 y1 A1 t) m1 (fun _ m1' =>
  succeeds (hermitian_matrix_rank_2_update x2 y2 A2 t) m2 (fun _ m2' =>
    exists r1 r2, mat_holds_on m1' A1 (in_tri t) r1 /\ mat_holds_on m2' A2 (in_tri t) r2 /\
    forall i1 i2 j1 j2, i1 < ext0 A1 -> j1 < ext1 A1 -> i2 < ext0 A2 -> j2 < ext1 A2 -> in_tri t i1 j1 -> in_tri t i2 j2 ->
      (i1 = j1 <-> i2 = j2) -> a1 i1 j1 = a2 i2 j2 -> f1 i1 = f2 i2 -> f1 j1 = f2 j2 -> g1 i1 = g2 i2 -> g1 j1 = g2 j2 ->
      r1 i1 j1 = r2 i2 j2)).
Proof. exact (@her2_row). Qed.
Print Assumptions C104_her2.
Definition her2_mem : mem F64 := (* test data *)
  mem_of [qnan; qnan; qnan; qnan; qnan; qnan; qnan; qnan; fl (-1) 0; fl (3) 0; qnan; qnan; fl (2) 0; fl (-6) 0; qnan; qnan; fl (3) 0; qnan; fl 0 0; fl 0 0; fl 0 0; fl 0 0].
Example C104_her2_case :
  succeeds (hermitian_matrix_rank_2_update (vec_at 12 2) (vec_at 8 2) (row_major 14 2 2) Lower) whole_mem (fun _ m1' =>
  succeeds (hermitian_matrix_rank_2_update (vec_at 12 2) (vec_at 8 2) (row_major 14 2 2) Lower) her2_mem (fun _ m2' => exists r1 r2, mat_holds_on m1' (row_major 14 2 2) (in_tri Lower) r1 /\ mat_holds_on m2' (row_major 14 2 2) (in_tri Lower) r2 /\ (r1 1 0 : F64) = r2 1 0)).
Proof.
  eapply wp_conseq; [apply (C104_her2 F64 whole_mem her2_mem (vec_at 12 2) (vec_at 12 2) (vec_at 8 2) (vec_at 8 2) (row_major 14 2 2) (row_major 14 2 2) Lower (fm [[fl (1) 0; fl (-2) 0]; [fl (3) 0; fl (-4) 0]]) (fm [[qnan; qnan]; [fl (3) 0; qnan]]) (fv [fl (2) 0; fl (-6) 0]) (fv [fl (2) 0; fl (-6) 0]) (fv [fl (-1) 0; fl (3) 0]) (fv [fl (-1) 0; fl (3) 0])); unfold her2_mem; conc|].
  intros u m1' K. eapply wp_conseq; [exact K|]. intros u2 m2' (r1 & r2 & K1 & K2 & K3). exists r1, r2. split; [exact K1|split; [exact K2|]].
  apply K3; conc.
Qed.

(** C = A B *)
Theorem C104_gemm : forall (O : ops) (m1 m2 : mem O) A1 A2 B1 B2 C1 C2 a1 a2 b1 b2,
  ext0 C1 = ext0 A1 -> ext1 A1 = ext0 B1 -> ext1 C1 = ext1 B1 ->
  mat_holds m1 A1 a1 -> mat_holds m1 B1 b1 -> mwritable C1 -> allocated m1 (mcells C1) ->
  disjoint (mcells A1) (mcells C1) -> disjoint (mcells B1) (mcells C1) ->
  ext0 C2 = ext0 A2 -> ext1 A2 = ext0 B2 -> ext1 C2 = ext1 B2 ->
  mat_holds m2 A2 a2 -> mat_holds m2 B2 b2 -> mwritable C2 -> allocated m2 (mcells C2) ->
  disjoint (mcells A2) (mcells C2) -> disjoint (mcells B2) (mcells C2) ->
  succeeds (matrix_product A1 B1 C1) m1 (fun _ m1' =>
  succeeds (matrix_product A2 B2 C2) m2 (fun _ m2' =>
    exists r1 r2, mat_holds m1' C1 r1 /\ mat_holds m2' C2 r2 /\
    forall i1 i2 j1 j2, i1 < ext0 C1 -> j1 < ext1 C1 -> i2 < ext0 C2 -> j2 < ext1 C2 ->
      ext1 A1 = ext1 A2 -> (forall k, k < ext1 A1 -> a1 i1 k = a2 i2 k) -> (forall k, k < ext1 A1 -> b1 k j1 = b2 k j2) ->
      r1 i1 j1 = r2 i2 j2)).
Proof. exact (@gemm_row). Qed.
Print Assumptions C104_gemm.
Definition gemm_mem : mem F64 := (* test data *)
  mem_of [fl (-5) 0; fl (3) 0; qnan; qnan; qnan; fl (6) 0; qnan; fl (1) 0; qnan; qnan; qnan; qnan; qnan; qnan; qnan; qnan; qnan; qnan; fl 0 0; fl 0 0; fl 0 0; fl 0 0].
Example C104_gemm_case :
  succeeds (matrix_product (row_major 0 2 2) (row_major 4 2 2) (row_major 14 2 2)) whole_mem (fun _ m1' =>
  succeeds (matrix_product (row_major 0 2 2) (row_major 4 2 2) (row_major 14 2 2)) gemm_mem (fun _ m2' => exists r1 r2, mat_holds m1' (row_major 14 2 2) r1 /\ mat_holds m2' (row_major 14 2 2) r2 /\ (r1 1 0 : F64) = r2 0 1)).
Proof.
  eapply wp_conseq; [apply (C104_gemm F64 whole_mem gemm_mem (row_major 0 2 2) (row_major 0 2 2) (row_major 4 2 2) (row_major 4 2 2) (row_major 14 2 2) (row_major 14 2 2) (fm [[fl (2) 0; fl (-7) 0]; [fl (-5) 0; fl (3) 0]]) (fm [[fl (-5) 0; fl (3) 0]; [qnan; qnan]]) (fm [[fl (6) 0; fl (-1) 0]; [fl (1) 0; fl (4) 0]]) (fm [[qnan; fl (6) 0]; [qnan; fl (1) 0]])); unfold gemm_mem; conc|].
  intros u m1' K. eapply wp_conseq; [exact K|]. intros u2 m2' (r1 & r2 & K1 & K2 & K3). exists r1, r2. split; [exact K1|split; [exact K2|]].
  apply K3; conc.
Qed.

(** C = E + A B *)
Theorem C104_gemm_upd : forall (O : ops) (m1 m2 : mem O) A1 A2 B1 B2 E1 E2 C1 C2 a1 a2 b1 b2 e1 e2,
  ext0 C1 = ext0 A1 -> ext1 A1 = ext0 B1 -> ext1 C1 = ext1 B1 -> ext0 E1 = ext0 C1 -> ext1 E1 = ext1 C1 ->
  mat_holds m1 A1 a1 -> mat_holds m1 B1 b1 -> mat_holds m1 E1 e1 -> mwritable C1 -> allocated m1 (mcells C1) ->
  disjoint (mcells A1) (mcells C1) -> disjoint (mcells B1) (mcells C1) -> disjoint_or_aligned_m E1 C1 ->
  ext0 C2 = ext0 A2 -> ext1 A2 = ext0 B2 -> ext1 C2 = ext1 B2 -> ext0 E2 = ext0 C2 -> ext1 E2 = ext1 C2 ->
  mat_holds m2 A2 a2 -> mat_holds m2 B2 b2 -> mat_holds m2 E2 e2 -> mwritable C2 -> allocated m2 (mcells C2) ->
  disjoint (mcells A2) (mcells C2) -> disjoint (mcells B2) (mcells C2) -> disjoint_or_aligned_m E2 C2 ->
  succeeds (matrix_product_upd A1 B1 E1 C1) m1 (fun _ m1' =>
  succeeds (matrix_product_upd A2 B2 E2 C2) m2 (fun _ m2' =>
    exists r1 r2, mat_holds m1' C1 r1 /\ mat_holds m2' C2 r2 /\
    forall i1 i2 j1 j2, i1 < ext0 C1 -> j1 < ext1 C1 -> i2 < ext0 C2 -> j2 < ext1 C2 ->
      ext1 A1 = ext1 A2 -> (forall k, k < ext1 A1 -> a1 i1 k = a2 i2 k) -> (forall k, k < ext1 A1 -> b1 k j1 = b2 k j2) -> e1 i1 j1 = e2 i2 j2 ->
      r1 i1 j1 = r2 i2 j2)).
Proof. exact (@gemm_upd_row). Qed.
Print Assumptions C104_gemm_upd.
Definition gemm_upd_mem : mem F64 := (* test data *)
  mem_of [fl (-5) 0; fl (3) 0; qnan; qnan; qnan; fl (6) 0; qnan; fl (1) 0; qnan; qnan; qnan; qnan; qnan; qnan; qnan; fl (3) 0; qnan; qnan; fl 0 0; fl 0 0; fl 0 0; fl 0 0].
Example C104_gemm_upd_case :
  succeeds (matrix_product_upd (row_major 0 2 2) (row_major 4 2 2) (row_major 14 2 2) (row_major 18 2 2)) whole_mem (fun _ m1' =>
  succeeds (matrix_product_upd (row_major 0 2 2) (row_major 4 2 2) (row_major 14 2 2) (row_major 18 2 2)) gemm_upd_mem (fun _ m2' => exists r1 r2, mat_holds m1' (row_major 18 2 2) r1 /\ mat_holds m2' (row_major 18 2 2) r2 /\ (r1 1 0 : F64) = r2 0 1)).
Proof.
  eapply wp_conseq; [apply (C104_gemm_upd F64 whole_mem gemm_upd_mem (row_major 0 2 2) (row_major 0 2 2) (row_major 4 2 2) (row_major 4 2 2) (row_major 14 2 2) (row_major 14 2 2) (row_major 18 2 2) (row_major 18 2 2) (fm [[fl (2) 0; fl (-7) 0]; [fl (-5) 0; fl (3) 0]]) (fm [[fl (-5) 0; fl (3) 0]; [qnan; qnan]]) (fm [[fl (6) 0; fl (-1) 0]; [fl (1) 0; fl (4) 0]]) (fm [[qnan; fl (6) 0]; [qnan; fl (1) 0]]) (fm [[fl (1) 0; fl (-2) 0]; [fl (3) 0; fl (-4) 0]]) (fm [[qnan; fl (3) 0]; [qnan; qnan]])); unfold gemm_upd_mem; conc|].
  intros u m1' K. eapply wp_conseq; [exact K|]. intros u2 m2' (r1 & r2 & K1 & K2 & K3). exists r1, r2. split; [exact K1|split; [exact K2|]].
  apply K3; conc.
Qed.

(** C = A B, A symmetric *)
Theorem C104_symm_left : forall (O : ops) (m1 m2 : mem O) A1 A2 t B1 B2 C1 C2 a1 a2 b1 b2,
  ext0 A1 = ext1 A1 -> ext0 C1 = ext0 A1 -> ext1 A1 = ext0 B1 -> ext1 C1 = ext1 B1 ->
  mat_holds_on m1 A1 (in_tri t) a1 -> mat_holds m1 B1 b1 -> mwritable C1 -> allocated m1 (mcells C1) ->
  disjoint (mcells_on A1 (in_tri t)) (mcells C1) -> disjoint (mcells B1) (mcells C1) ->
  ext0 A2 = ext1 A2 -> ext0 C2 = ext0 A2 -> ext1 A2 = ext0 B2 -> ext1 C2 = ext1 B2 ->
  mat_holds_on m2 A2 (in_tri t) a2 -> mat_holds m2 B2 b2 -> mwritable C2 -> allocated m2 (mcells C2) ->
  disjoint (mcells_on A2 (in_tri t)) (mcells C2) -> disjoint (mcells B2) (mcells C2) ->
  succeeds (symmetric_matrix_product_left A1 t B1 C1) m1 (fun _ m1' =>
  succeeds (symmetric_matrix_product_left A2 t B2 C2) m2 (fun _ m2' =>
    exists r1 r2, mat_holds m1' C1 r1 /\ mat_holds m2' C2 r2 /\
    forall i j1 j2, i < ext0 C1 -> j1 < ext1 C1 -> i < ext0 C2 -> j2 < ext1 C2 ->
      ext1 A1 = ext1 A2 -> (forall p q, p < ext0 A1 -> q < ext1 A1 -> in_tri t p q -> p = i \/ q = i -> a1 p q = a2 p q) -> (forall k, k < ext1 A1 -> b1 k j1 = b2 k j2) ->
      r1 i j1 = r2 i j2)).
Proof. exact (@symm_left_row). Qed.
Print Assumptions C104_symm_left.
Definition symm_left_mem : mem F64 := (* test data *)
  mem_of [qnan; qnan; fl (-5) 0; fl (3) 0; qnan; fl (6) 0; qnan; fl (1) 0; qnan; qnan; qnan; qnan; qnan; qnan; qnan; qnan; qnan; qnan; fl 0 0; fl 0 0; fl 0 0; fl 0 0].
Example C104_symm_left_case :
  succeeds (symmetric_matrix_product_left (row_major 0 2 2) Lower (row_major 4 2 2) (row_major 14 2 2)) whole_mem (fun _ m1' =>
  succeeds (symmetric_matrix_product_left (row_major 0 2 2) Lower (row_major 4 2 2) (row_major 14 2 2)) symm_left_mem (fun _ m2' => exists r1 r2, mat_holds m1' (row_major 14 2 2) r1 /\ mat_holds m2' (row_major 14 2 2) r2 /\ (r1 1 0 : F64) = r2 1 1)).
Proof.
  eapply wp_conseq; [apply (C104_symm_left F64 whole_mem symm_left_mem (row_major 0 2 2) (row_major 0 2 2) Lower (row_major 4 2 2) (row_major 4 2 2) (row_major 14 2 2) (row_major 14 2 2) (fm [[fl (2) 0; fl (-7) 0]; [fl (-5) 0; fl (3) 0]]) (fm [[qnan; qnan]; [fl (-5) 0; fl (3) 0]]) (fm [[fl (6) 0; fl (-1) 0]; [fl (1) 0; fl (4) 0]]) (fm [[qnan; fl (6) 0]; [qnan; fl (1) 0]])); unfold symm_left_mem; conc|].
  intros u m1' K. eapply wp_conseq; [exact K|]. intros u2 m2' (r1 & r2 & K1 & K2 & K3). exists r1, r2. split; [exact K1|split; [exact K2|]].
  apply K3; conc.
Qed.

(** C = B A, A symmetric *)
Theorem C104_symm_right : forall (O : ops) (m1 m2 : mem O) B1 B2 A1 A2 t C1 C2 a1 a2 b1 b2,
  ext0 A1 = ext1 A1 -> ext0 C1 = ext0 B1 -> ext1 B1 = ext0 A1 -> ext1 C1 = ext1 A1 ->
  mat_holds_on m1 A1 (in_tri t) a1 -> mat_holds m1 B1 b1 -> mwritable C1 -> allocated m1 (mcells C1) ->
  disjoint (mcells_on A1 (in_tri t)) (mcells C1) -> disjoint (mcells B1) (mcells C1) ->
  ext0 A2 = ext1 A2 -> ext0 C2 = ext0 B2 -> ext1 B2 = ext0 A2 -> ext1 C2 = ext1 A2 ->
  mat_holds_on m2 A2 (in_tri t) a2 -> mat_holds m2 B2 b2 -> mwritable C2 -> allocated m2 (mcells C2) ->
  disjoint (mcells_on A2 (in_tri t)) (mcells C2) -> disjoint (mcells B2) (mcells C2) ->
  succeeds (symmetric_matrix_product_right B1 A1 t C1) m1 (fun _ m1' =>
  succeeds (symmetric_matrix_product_right B2 A2 t C2) m2 (fun _ m2' =>
    exists r1 r2, mat_holds m1' C1 r1 /\ mat_holds m2' C2 r2 /\
    forall i1 i2 j, i1 < ext0 C1 -> j < ext1 C1 -> i2 < ext0 C2 -> j < ext1 C2 ->
      ext1 A1 = ext1 A2 -> (forall p q, p < ext0 A1 -> q < ext1 A1 -> in_tri t p q -> p = j \/ q = j -> a1 p q = a2 p q) -> (forall k, k < ext1 A1 -> b1 i1 k = b2 i2 k) ->
      r1 i1 j = r2 i2 j)).
Proof. exact (@symm_right_row). Qed.
Print Assumptions C104_symm_right.
Definition symm_right_mem : mem F64 := (* test data *)
  mem_of [qnan; qnan; fl (-5) 0; fl (3) 0; fl (1) 0; fl (4) 0; qnan; qnan; qnan; qnan; qnan; qnan; qnan; qnan; qnan; qnan; qnan; qnan; fl 0 0; fl 0 0; fl 0 0; fl 0 0].
Example C104_symm_right_case :
  succeeds (symmetric_matrix_product_right (row_major 4 2 2) (row_major 0 2 2) Lower (row_major 14 2 2)) whole_mem (fun _ m1' =>
  succeeds (symmetric_matrix_product_right (row_major 4 2 2) (row_major 0 2 2) Lower (row_major 14 2 2)) symm_right_mem (fun _ m2' => exists r1 r2, mat_holds m1' (row_major 14 2 2) r1 /\ mat_holds m2' (row_major 14 2 2) r2 /\ (r1 1 1 : F64) = r2 0 1)).
Proof.
  eapply wp_conseq; [apply (C104_symm_right F64 whole_mem symm_right_mem (row_major 4 2 2) (row_major 4 2 2) (row_major 0 2 2) (row_major 0 2 2) Lower (row_major 14 2 2) (row_major 14 2 2) (fm [[fl (2) 0; fl (-7) 0]; [fl (-5) 0; fl (3) 0]]) (fm [[qnan; qnan]; [fl (-5) 0; fl (3) 0]]) (fm [[fl (6) 0; fl (-1) 0]; [fl (1) 0; fl (4) 0]]) (fm [[fl (1) 0; fl (4) 0]; [qnan; qnan]])); unfold symm_right_mem; conc|].
  intros u m1' K. eapply wp_conseq; [exact K|]. intros u2 m2' (r1 & r2 & K1 & K2 & K3). exists r1, r2. split; [exact K1|split; [exact K2|]].
  apply K3; conc.
Qed.

(** C = A B, A Hermitian *)
Theorem C104_hemm_left : forall (O : ops) (m1 m2 : mem O) A1 A2 t B1 B2 C1 C2 a1 a2 b1 b2,
  ext0 A1 = ext1 A1 -> ext0 C1 = ext0 A1 -> ext1 A1 = ext0 B1 -> ext1 C1 = ext1 B1 ->
  mat_holds_on m1 A1 (in_tri t) a1 -> mat_holds m1 B1 b1 -> mwritable C1 -> allocated m1 (mcells C1) ->
  disjoint (mcells_on A1 (in_tri t)) (mcells C1) -> disjoint (mcells B1) (mcells C1) ->
  ext0 A2 = ext1 A2 -> ext0 C2 = ext0 A2 -> ext1 A2 = ext0 B2 -> ext1 C2 = ext1 B2 ->
  mat_holds_on m2 A2 (in_tri t) a2 -> mat_holds m2 B2 b2 -> mwritable C2 -> allocated m2 (mcells C2) ->
  disjoint (mcells_on A2 (in_tri t)) (mcells C2) -> disjoint (mcells B2) (mcells C2) ->
  succeeds (hermitian_matrix_product_left A1 t B1 C1) m1 (fun _ m1' =>
  succeeds (hermitian_matrix_product_left A2 t B2 C2) m2 (fun _ m2' =>
    exists r1 r2, mat_holds m1' C1 r1 /\ mat_holds m2' C2 r2 /\
    forall i j1 j2, i < ext0 C1 -> j1 < ext1 C1 -> i < ext0 C2 -> j2 < ext1 C2 ->
      ext1 A1 = ext1 A2 -> (forall p q, p < ext0 A1 -> q < ext1 A1 -> in_tri t p q -> p = i \/ q = i -> a1 p q = a2 p q) -> (forall k, k < ext1 A1 -> b1 k j1 = b2 k j2) ->
      r1 i j1 = r2 i j2)).
Proof. exact (@hemm_left_row). Qed.
Print Assumptions C104_hemm_left.
Definition hemm_left_mem : mem F64 := (* test data *)
  mem_of [qnan; qnan; fl (-5) 0; fl (3) 0; qnan; fl (6) 0; qnan; fl (1) 0; qnan; qnan; qnan; qnan; qnan; qnan; qnan; qnan; qnan; qnan; fl 0 0; fl 0 0; fl 0 0; fl 0 0].
Example C104_hemm_left_case :
  succeeds (hermitian_matrix_product_left (row_major 0 2 2) Lower (row_major 4 2 2) (row_major 14 2 2)) whole_mem (fun _ m1' =>
  succeeds (hermitian_matrix_product_left (row_major 0 2 2) Lower (row_major 4 2 2) (row_major 14 2 2)) hemm_left_mem (fun _ m2' => exists r1 r2, mat_holds m1' (row_major 14 2 2) r1 /\ mat_holds m2' (row_major 14 2 2) r2 /\ (r1 1 0 : F64) = r2 1 1)).
Proof.
  eapply wp_conseq; [apply (C104_hemm_left F64 whole_mem hemm_left_mem (row_major 0 2 2) (row_major 0 2 2) Lower (row_major 4 2 2) (row_major 4 2 2) (row_major 14 2 2) (row_major 14 2 2) (fm [[fl (2) 0; fl (-7) 0]; [fl (-5) 0; fl (3) 0]]) (fm [[qnan; qnan]; [fl (-5) 0; fl (3) 0]]) (fm [[fl (6) 0; fl (-1) 0]; [fl (1) 0; fl (4) 0]]) (fm [[qnan; fl (6) 0]; [qnan; fl (1) 0]])); unfold hemm_left_mem; conc|].
  intros u m1' K. eapply wp_conseq; [exact K|]. intros u2 m2' (r1 & r2 & K1 & K2 & K3). exists r1, r2. split; [exact K1|split; [exact K2|]].
  apply K3; conc.
Qed.

(** C = B A, A Hermitian *)
Theorem C104_hemm_right : forall (O : ops) (m1 m2 : mem O) B1 B2 A1 A2 t C1 C2 a1 a2 b1 b2,
  ext0 A1 = ext1 A1 -> ext0 C1 = ext0 B1 -> ext1 B1 = ext0 A1 -> ext1 C1 = ext1 A1 ->
  mat_holds_on m1 A1 (in_tri t) a1 -> mat_holds m1 B1 b1 -> mwritable C1 -> allocated m1 (mcells C1) ->
  disjoint (mcells_on A1 (in_tri t)) (mcells C1) -> disjoint (mcells B1) (mcells C1) ->
  ext0 A2 = ext1 A2 -> ext0 C2 = ext0 B2 -> ext1 B2 = ext0 A2 -> ext1 C2 = ext1 A2 ->
  mat_holds_on m2 A2 (in_tri t) a2 -> mat_holds m2 B2 b2 -> mwritable C2 -> allocated m2 (mcells C2) ->
  disjoint (mcells_on A2 (in_tri t)) (mcells C2) -> disjoint (mcells B2) (mcells C2) ->
  succeeds (hermitian_matrix_product_right B1 A1 t C1) m1 (fun _ m1' =>
  succeeds (hermitian_matrix_product_right B2 A2 t C2) m2 (fun _ m2' =>
    exists r1 r2, mat_holds m1' C1 r1 /\ mat_holds m2' C2 r2 /\
    forall i1 i2 j, i1 < ext0 C1 -> j < ext1 C1 -> i2 < ext0 C2 -> j < ext1 C2 ->
      ext1 A1 = ext1 A2 -> (forall p q, p < ext0 A1 -> q < ext1 A1 -> in_tri t p q -> p = j \/ q = j -> a1 p q = a2 p q) -> (forall k, k < ext1 A1 -> b1 i1 k = b2 i2 k) ->
      r1 i1 j = r2 i2 j)).
Proof. exact (@hemm_right_row). Qed.
Print Assumptions C104_hemm_right.
Definition hemm_right_mem : mem F64 := (* test data *)
  mem_of [qnan; qnan; fl (-5) 0; fl (3) 0; fl (1) 0; fl (4) 0; qnan; qnan; qnan; qnan; qnan; qnan; qnan; qnan; qnan; qnan; qnan; qnan; fl 0 0; fl 0 0; fl 0 0; fl 0 0].
Example C104_hemm_right_case :
  succeeds (hermitian_matrix_product_right (row_major 4 2 2) (row_major 0 2 2) Lower (row_major 14 2 2)) whole_mem (fun _ m1' =>
  succeeds (hermitian_matrix_product_right (row_major 4 2 2) (row_major 0 2 2) Lower (row_major 14 2 2)) hemm_right_mem (fun _ m2' => exists r1 r2, mat_holds m1' (row_major 14 2 2) r1 /\ mat_holds m2' (row_major 14 2 2) r2 /\ (r1 1 1 : F64) = r2 0 1)).
Proof.
  eapply wp_conseq; [apply (C104_hemm_right F64 whole_mem hemm_right_mem (row_major 4 2 2) (row_major 4 2 2) (row_major 0 2 2) (row_major 0 2 2) Lower (row_major 14 2 2) (row_major 14 2 2) (fm [[fl (2) 0; fl (-7) 0]; [fl (-5) 0; fl (3) 0]]) (fm [[qnan; qnan]; [fl (-5) 0; fl (3) 0]]) (fm [[fl (6) 0; fl (-1) 0]; [fl (1) 0; fl (4) 0]]) (fm [[fl (1) 0; fl (4) 0]; [qnan; qnan]])); unfold hemm_right_mem; conc|].
  intros u m1' K. eapply wp_conseq; [exact K|]. intros u2 m2' (r1 & r2 & K1 & K2 & K3). exists r1, r2. split; [exact K1|split; [exact K2|]].
  apply K3; conc.
Qed.

(** C = A B, A triangular *)
Theorem C104_trmm_left : forall (O : ops) ty (m1 m2 : mem O) A1 A2 t d B1 B2 C1 C2 a1 a2 b1 b2,
  fits ty (ext0 C1) ->
  ext0 A1 = ext1 A1 -> ext0 C1 = ext0 A1 -> ext1 A1 = ext0 B1 -> ext1 C1 = ext1 B1 ->
  mat_holds_on m1 A1 (stored t d) a1 -> mat_holds m1 B1 b1 -> mwritable C1 -> allocated m1 (mcells C1) ->
  disjoint (mcells_on A1 (stored t d)) (mcells C1) -> disjoint (mcells B1) (mcells C1) ->
  fits ty (ext0 C2) ->
  ext0 A2 = ext1 A2 -> ext0 C2 = ext0 A2 -> ext1 A2 = ext0 B2 -> ext1 C2 = ext1 B2 ->
  mat_holds_on m2 A2 (stored t d) a2 -> mat_holds m2 B2 b2 -> mwritable C2 -> allocated m2 (mcells C2) ->
  disjoint (mcells_on A2 (stored t d)) (mcells C2) -> disjoint (mcells B2) (mcells C2) ->
  succeeds (triangular_matrix_product_left ty A1 t d B1 C1) m1 (fun _ m1' =>
  succeeds (triangular_matrix_product_left ty A2 t d B2 C2) m2 (fun _ m2' =>
    exists r1 r2, mat_holds m1' C1 r1 /\ mat_holds m2' C2 r2 /\
    forall i j1 j2, i < ext0 C1 -> j1 < ext1 C1 -> i < ext0 C2 -> j2 < ext1 C2 ->
      ext1 A1 = ext1 A2 -> (forall k, k < ext1 A1 -> stored t d i k -> a1 i k = a2 i k) -> (forall k, k < ext1 A1 -> in_tri t i k -> b1 k j1 = b2 k j2) ->
      r1 i j1 = r2 i j2)).
Proof. exact (@trmm_left_row). Qed.
Print Assumptions C104_trmm_left.
Definition trmm_left_mem : mem F64 := (* test data *)
  mem_of [qnan; qnan; fl (-5) 0; fl (3) 0; qnan; fl (6) 0; qnan; fl (1) 0; qnan; qnan; qnan; qnan; qnan; qnan; qnan; qnan; qnan; qnan; fl 0 0; fl 0 0; fl 0 0; fl 0 0].
Example C104_trmm_left_case :
  succeeds (triangular_matrix_product_left I32 (row_major 0 2 2) Lower Explicit (row_major 4 2 2) (row_major 14 2 2)) whole_mem (fun _ m1' =>
  succeeds (triangular_matrix_product_left I32 (row_major 0 2 2) Lower Explicit (row_major 4 2 2) (row_major 14 2 2)) trmm_left_mem (fun _ m2' => exists r1 r2, mat_holds m1' (row_major 14 2 2) r1 /\ mat_holds m2' (row_major 14 2 2) r2 /\ (r1 1 0 : F64) = r2 1 1)).
Proof.
  eapply wp_conseq; [apply (C104_trmm_left F64 I32 whole_mem trmm_left_mem (row_major 0 2 2) (row_major 0 2 2) Lower Explicit (row_major 4 2 2) (row_major 4 2 2) (row_major 14 2 2) (row_major 14 2 2) (fm [[fl (2) 0; fl (-7) 0]; [fl (-5) 0; fl (3) 0]]) (fm [[qnan; qnan]; [fl (-5) 0; fl (3) 0]]) (fm [[fl (6) 0; fl (-1) 0]; [fl (1) 0; fl (4) 0]]) (fm [[qnan; fl (6) 0]; [qnan; fl (1) 0]])); unfold trmm_left_mem; conc|].
  intros u m1' K. eapply wp_conseq; [exact K|]. intros u2 m2' (r1 & r2 & K1 & K2 & K3). exists r1, r2. split; [exact K1|split; [exact K2|]].
  apply K3; conc.
Qed.

(** C = B A, A triangular *)
Theorem C104_trmm_right : forall (O : ops) ty (m1 m2 : mem O) B1 B2 A1 A2 t d C1 C2 a1 a2 b1 b2,
  fits ty (ext1 C1) ->
  ext0 A1 = ext1 A1 -> ext0 C1 = ext0 B1 -> ext1 B1 = ext0 A1 -> ext1 C1 = ext1 A1 ->
  mat_holds_on m1 A1 (stored t d) a1 -> mat_holds m1 B1 b1 -> mwritable C1 -> allocated m1 (mcells C1) ->
  disjoint (mcells_on A1 (stored t d)) (mcells C1) -> disjoint (mcells B1) (mcells C1) ->
  fits ty (ext1 C2) ->
  ext0 A2 = ext1 A2 -> ext0 C2 = ext0 B2 -> ext1 B2 = ext0 A2 -> ext1 C2 = ext1 A2 ->
  mat_holds_on m2 A2 (stored t d) a2 -> mat_holds m2 B2 b2 -> mwritable C2 -> allocated m2 (mcells C2) ->
  disjoint (mcells_on A2 (stored t d)) (mcells C2) -> disjoint (mcells B2) (mcells C2) ->
  succeeds (triangular_matrix_product_right ty B1 A1 t d C1) m1 (fun _ m1' =>
  succeeds (triangular_matrix_product_right ty B2 A2 t d C2) m2 (fun _ m2' =>
    exists r1 r2, mat_holds m1' C1 r1 /\ mat_holds m2' C2 r2 /\
    forall i1 i2 j, i1 < ext0 C1 -> j < ext1 C1 -> i2 < ext0 C2 -> j < ext1 C2 ->
      ext1 A1 = ext1 A2 -> (forall k, k < ext1 A1 -> stored t d k j -> a1 k j = a2 k j) -> (forall k, k < ext1 A1 -> in_tri t k j -> b1 i1 k = b2 i2 k) ->
      r1 i1 j = r2 i2 j)).
Proof. exact (@trmm_right_row). Qed.
Print Assumptions C104_trmm_right.
Definition trmm_right_mem : mem F64 := (* test data *)
  mem_of [qnan; qnan; qnan; fl (3) 0; qnan; fl (4) 0; qnan; qnan; qnan; qnan; qnan; qnan; qnan; qnan; qnan; qnan; qnan; qnan; fl 0 0; fl 0 0; fl 0 0; fl 0 0].
Example C104_trmm_right_case :
  succeeds (triangular_matrix_product_right I32 (row_major 4 2 2) (row_major 0 2 2) Lower Explicit (row_major 14 2 2)) whole_mem (fun _ m1' =>
  succeeds (triangular_matrix_product_right I32 (row_major 4 2 2) (row_major 0 2 2) Lower Explicit (row_major 14 2 2)) trmm_right_mem (fun _ m2' => exists r1 r2, mat_holds m1' (row_major 14 2 2) r1 /\ mat_holds m2' (row_major 14 2 2) r2 /\ (r1 1 1 : F64) = r2 0 1)).
Proof.
  eapply wp_conseq; [apply (C104_trmm_right F64 I32 whole_mem trmm_right_mem (row_major 4 2 2) (row_major 4 2 2) (row_major 0 2 2) (row_major 0 2 2) Lower Explicit (row_major 14 2 2) (row_major 14 2 2) (fm [[fl (2) 0; fl (-7) 0]; [fl (-5) 0; fl (3) 0]]) (fm [[qnan; qnan]; [qnan; fl (3) 0]]) (fm [[fl (6) 0; fl (-1) 0]; [fl (1) 0; fl (4) 0]]) (fm [[qnan; fl (4) 0]; [qnan; qnan]])); unfold trmm_right_mem; conc|].
  intros u m1' K. eapply wp_conseq; [exact K|]. intros u2 m2' (r1 & r2 & K1 & K2 & K3). exists r1, r2. split; [exact K1|split; [exact K2|]].
  apply K3; conc.
Qed.

(** C = A C, A triangular *)
Theorem C104_trmm_left_inplace : forall (O : ops) (m1 m2 : mem O) A1 A2 t d C1 C2 a1 a2 c1 c2,
  ext0 A1 = ext1 A1 -> ext0 C1 = ext0 A1 ->
  mat_holds_on m1 A1 (stored t d) a1 -> mat_holds m1 C1 c1 -> mwritable C1 ->
  disjoint (mcells_on A1 (stored t d)) (mcells C1) ->
  ext0 A2 = ext1 A2 -> ext0 C2 = ext0 A2 ->
  mat_holds_on m2 A2 (stored t d) a2 -> mat_holds m2 C2 c2 -> mwritable C2 ->
  disjoint (mcells_on A2 (stored t d)) (mcells C2) ->
  succeeds (triangular_matrix_left_product A1 t d C1) m1 (fun _ m1' =>
  succeeds (triangular_matrix_left_product A2 t d C2) m2 (fun _ m2' =>
    exists r1 r2, mat_holds m1' C1 r1 /\ mat_holds m2' C2 r2 /\
    forall i j1 j2, i < ext0 C1 -> j1 < ext1 C1 -> i < ext0 C2 -> j2 < ext1 C2 ->
      ext1 A1 = ext1 A2 -> (forall k, k < ext1 A1 -> stored t d i k -> a1 i k = a2 i k) -> (forall k, k < ext1 A1 -> in_tri t i k -> c1 k j1 = c2 k j2) ->
      r1 i j1 = r2 i j2)).
Proof. exact (@trmm_left_inplace_row). Qed.
Print Assumptions C104_trmm_left_inplace.
Definition trmm_left_inplace_mem : mem F64 := (* test data *)
  mem_of [qnan; qnan; fl (-5) 0; fl (3) 0; qnan; fl (6) 0; qnan; fl (1) 0; qnan; qnan; qnan; qnan; qnan; qnan; qnan; qnan; qnan; qnan; fl 0 0; fl 0 0; fl 0 0; fl 0 0].
Example C104_trmm_left_inplace_case :
  succeeds (triangular_matrix_left_product (row_major 0 2 2) Lower Explicit (row_major 4 2 2)) whole_mem (fun _ m1' =>
  succeeds (triangular_matrix_left_product (row_major 0 2 2) Lower Explicit (row_major 4 2 2)) trmm_left_inplace_mem (fun _ m2' => exists r1 r2, mat_holds m1' (row_major 4 2 2) r1 /\ mat_holds m2' (row_major 4 2 2) r2 /\ (r1 1 0 : F64) = r2 1 1)).
Proof.
  eapply wp_conseq; [apply (C104_trmm_left_inplace F64 whole_mem trmm_left_inplace_mem (row_major 0 2 2) (row_major 0 2 2) Lower Explicit (row_major 4 2 2) (row_major 4 2 2) (fm [[fl (2) 0; fl (-7) 0]; [fl (-5) 0; fl (3) 0]]) (fm [[qnan; qnan]; [fl (-5) 0; fl (3) 0]]) (fm [[fl (6) 0; fl (-1) 0]; [fl (1) 0; fl (4) 0]]) (fm [[qnan; fl (6) 0]; [qnan; fl (1) 0]])); unfold trmm_left_inplace_mem; conc|].
  intros u m1' K. eapply wp_conseq; [exact K|]. intros u2 m2' (r1 & r2 & K1 & K2 & K3). exists r1, r2. split; [exact K1|split; [exact K2|]].
  apply K3; conc.
Qed.

(** C = C A, A triangular *)
Theorem C104_trmm_right_inplace : forall (O : ops) (m1 m2 : mem O) A1 A2 t d C1 C2 a1 a2 c1 c2,
  ext0 A1 = ext1 A1 -> ext1 C1 = ext0 A1 ->
  mat_holds_on m1 A1 (stored t d) a1 -> mat_holds m1 C1 c1 -> mwritable C1 ->
  disjoint (mcells_on A1 (stored t d)) (mcells C1) ->
  ext0 A2 = ext1 A2 -> ext1 C2 = ext0 A2 ->
  mat_holds_on m2 A2 (stored t d) a2 -> mat_holds m2 C2 c2 -> mwritable C2 ->
  disjoint (mcells_on A2 (stored t d)) (mcells C2) ->
  succeeds (triangular_matrix_right_product A1 t d C1) m1 (fun _ m1' =>
  succeeds (triangular_matrix_right_product A2 t d C2) m2 (fun _ m2' =>
    exists r1 r2, mat_holds m1' C1 r1 /\ mat_holds m2' C2 r2 /\
    forall i1 i2 j, i1 < ext0 C1 -> j < ext1 C1 -> i2 < ext0 C2 -> j < ext1 C2 ->
      ext1 A1 = ext1 A2 -> (forall k, k < ext1 A1 -> stored t d k j -> a1 k j = a2 k j) -> (forall k, k < ext1 A1 -> in_tri t k j -> c1 i1 k = c2 i2 k) ->
      r1 i1 j = r2 i2 j)).
Proof. exact (@trmm_right_inplace_row). Qed.
Print Assumptions C104_trmm_right_inplace.
Definition trmm_right_inplace_mem : mem F64 := (* test data *)
  mem_of [qnan; qnan; qnan; fl (3) 0; qnan; fl (4) 0; qnan; qnan; qnan; qnan; qnan; qnan; qnan; qnan; qnan; qnan; qnan; qnan; fl 0 0; fl 0 0; fl 0 0; fl 0 0].
Example C104_trmm_right_inplace_case :
  succeeds (triangular_matrix_right_product (row_major 0 2 2) Lower Explicit (row_major 4 2 2)) whole_mem (fun _ m1' =>
  succeeds (triangular_matrix_right_product (row_major 0 2 2) Lower Explicit (row_major 4 2 2)) trmm_right_inplace_mem (fun _ m2' => exists r1 r2, mat_holds m1' (row_major 4 2 2) r1 /\ mat_holds m2' (row_major 4 2 2) r2 /\ (r1 1 1 : F64) = r2 0 1)).
Proof.
  eapply wp_conseq; [apply (C104_trmm_right_inplace F64 whole_mem trmm_right_inplace_mem (row_major 0 2 2) (row_major 0 2 2) Lower Explicit (row_major 4 2 2) (row_major 4 2 2) (fm [[fl (2) 0; fl (-7) 0]; [fl (-5) 0; fl (3) 0]]) (fm [[qnan; qnan]; [qnan; fl (3) 0]]) (fm [[fl (6) 0; fl (-1) 0]; [fl (1) 0; fl (4) 0]]) (fm [[qnan; fl (4) 0]; [qnan; qnan]])); unfold trmm_right_inplace_mem; conc|].
  intros u m1' K. eapply wp_conseq; [exact K|]. intros u2 m2' (r1 & r2 & K1 & K2 & K3). exists r1, r2. split; [exact K1|split; [exact K2|]].
  apply K3; conc.
Qed.

(** C += A A^T on one triangle *)
Theorem C104_syrk : forall (O : ops) (m1 m2 : mem O) A1 A2 C1 C2 t a1 a2 c1 c2,
  ext0 C1 = ext1 C1 -> ext0 A1 = ext0 C1 ->
  mat_holds m1 A1 a1 -> mat_holds_on m1 C1 (in_tri t) c1 -> mwritable_on C1 (in_tri t) ->
  disjoint (mcells A1) (mcells_on C1 (in_tri t)) ->
  ext0 C2 = ext1 C2 -> ext0 A2 = ext0 C2 ->
  mat_holds m2 A2 a2 -> mat_holds_on m2 C2 (in_tri t) c2 -> mwritable_on C2 (in_tri t) ->
  disjoint (mcells A2) (mcells_on C2 (in_tri t)) ->
  succeeds (symmetric_matrix_rank_k_update A1 C1 t) m1 (fun _ m1' =>
  succeeds (symmetric_matrix_rank_k_update A2 C2 t) m2 (fun _ m2' =>
    exists r1 r2, mat_holds_on m1' C1 (in_tri t) r1 /\ mat_holds_on m2' C2 (in_tri t) r2 /\
    forall i1 i2 j1 j2, i1 < ext0 C1 -> j1 < ext1 C1 -> i2 < ext0 C2 -> j2 < ext1 C2 -> in_tri t i1 j1 -> in_tri t i2 j2 ->
      ext1 A1 = ext1 A2 -> c1 i1 j1 = c2 i2 j2 -> (forall k, k < ext1 A1 -> a1 i1 k = a2 i2 k) -> (forall k, k < ext1 A1 -> a1 j1 k = a2 j2 k) ->
      r1 i1 j1 = r2 i2 j2)).
Proof. exact (@syrk_row). Qed.
Print Assumptions C104_syrk.
Definition syrk_mem : mem F64 := (* test data *)
  mem_of [fl (2) 0; fl (-7) 0; fl (-5) 0; fl (3) 0; qnan; qnan; fl (1) 0; qnan; qnan; qnan; qnan; qnan; qnan; qnan; qnan; qnan; qnan; qnan; fl 0 0; fl 0 0; fl 0 0; fl 0 0].
Example C104_syrk_case :
  succeeds (symmetric_matrix_rank_k_update (row_major 0 2 2) (row_major 4 2 2) Lower) whole_mem (fun _ m1' =>
  succeeds (symmetric_matrix_rank_k_update (row_major 0 2 2) (row_major 4 2 2) Lower) syrk_mem (fun _ m2' => exists r1 r2, mat_holds_on m1' (row_major 4 2 2) (in_tri Lower) r1 /\ mat_holds_on m2' (row_major 4 2 2) (in_tri Lower) r2 /\ (r1 1 0 : F64) = r2 1 0)).
Proof.
  eapply wp_conseq; [apply (C104_syrk F64 whole_mem syrk_mem (row_major 0 2 2) (row_major 0 2 2) (row_major 4 2 2) (row_major 4 2 2) Lower (fm [[fl (2) 0; fl (-7) 0]; [fl (-5) 0; fl (3) 0]]) (fm [[fl (2) 0; fl (-7) 0]; [fl (-5) 0; fl (3) 0]]) (fm [[fl (6) 0; fl (-1) 0]; [fl (1) 0; fl (4) 0]]) (fm [[qnan; qnan]; [fl (1) 0; qnan]])); unfold syrk_mem; conc|].
  intros u m1' K. eapply wp_conseq; [exact K|]. intros u2 m2' (r1 & r2 & K1 & K2 & K3). exists r1, r2. split; [exact K1|split; [exact K2|]].
  apply K3; conc.
Qed.

(** C += A A^H on one triangle *)
Theorem C104_herk : forall (O : ops) (m1 m2 : mem O) A1 A2 C1 C2 t a1 a2 c1 c2,
  ext0 C1 = ext1 C1 -> ext0 A1 = ext0 C1 ->
  mat_holds m1 A1 a1 -> mat_holds_on m1 C1 (in_tri t) c1 -> mwritable_on C1 (in_tri t) ->
  disjoint (mcells A1) (mcells_on C1 (in_tri t)) ->
  ext0 C2 = ext1 C2 -> ext0 A2 = ext0 C2 ->
  mat_holds m2 A2 a2 -> mat_holds_on m2 C2 (in_tri t) c2 -> mwritable_on C2 (in_tri t) ->
  disjoint (mcells A2) (mcells_on C2 (in_tri t)) ->
  succeeds (hermitian_matrix_rank_k_update A1 C1 t) m1 (fun _ m1' =>
  succeeds (hermitian_matrix_rank_k_update A2 C2 t) m2 (fun _ m2' =>
    exists r1 r2, mat_holds_on m1' C1 (in_tri t) r1 /\ mat_holds_on m2' C2 (in_tri t) r2 /\
    forall i1 i2 j1 j2, i1 < ext0 C1 -> j1 < ext1 C1 -> i2 < ext0 C2 -> j2 < ext1 C2 -> in_tri t i1 j1 -> in_tri t i2 j2 ->
      (i1 = j1 <-> i2 = j2) -> ext1 A1 = ext1 A2 -> c1 i1 j1 = c2 i2 j2 -> (forall k, k < ext1 A1 -> a1 i1 k = a2 i2 k) -> (forall k, k < ext1 A1 -> a1 j1 k = a2 j2 k) ->
      r1 i1 j1 = r2 i2 j2)).
Proof. exact (@herk_row). Qed.
Print Assumptions C104_herk.
Definition herk_mem : mem F64 := (* test data *)
  mem_of [fl (2) 0; fl (-7) 0; fl (-5) 0; fl (3) 0; qnan; qnan; fl (1) 0; qnan; qnan; qnan; qnan; qnan; qnan; qnan; qnan; qnan; qnan; qnan; fl 0 0; fl 0 0; fl 0 0; fl 0 0].
Example C104_herk_case :
  succeeds (hermitian_matrix_rank_k_update (row_major 0 2 2) (row_major 4 2 2) Lower) whole_mem (fun _ m1' =>
  succeeds (hermitian_matrix_rank_k_update (row_major 0 2 2) (row_major 4 2 2) Lower) herk_mem (fun _ m2' => exists r1 r2, mat_holds_on m1' (row_major 4 2 2) (in_tri Lower) r1 /\ mat_holds_on m2' (row_major 4 2 2) (in_tri Lower) r2 /\ (r1 1 0 : F64) = r2 1 0)).
Proof.
  eapply wp_conseq; [apply (C104_herk F64 whole_mem herk_mem (row_major 0 2 2) (row_major 0 2 2) (row_major 4 2 2) (row_major 4 2 2) Lower (fm [[fl (2) 0; fl (-7) 0]; [fl (-5) 0; fl (3) 0]]) (fm [[fl (2) 0; fl (-7) 0]; [fl (-5) 0; fl (3) 0]]) (fm [[fl (6) 0; fl (-1) 0]; [fl (1) 0; fl (4) 0]]) (fm [[qnan; qnan]; [fl (1) 0; qnan]])); unfold herk_mem; conc|].
  intros u m1' K. eapply wp_conseq; [exact K|]. intros u2 m2' (r1 & r2 & K1 & K2 & K3). exists r1, r2. split; [exact K1|split; [exact K2|]].
  apply K3; conc.
Qed.

(** C += A B^T + B A^T on one triangle *)
Theorem C104_syr2k : forall (O : ops) (m1 m2 : mem O) A1 A2 B1 B2 C1 C2 t a1 a2 b1 b2 c1 c2,
  ext0 C1 = ext1 C1 -> ext0 A1 = ext0 C1 -> ext0 B1 = ext0 C1 -> ext1 B1 = ext1 A1 ->
  mat_holds m1 A1 a1 -> mat_holds m1 B1 b1 -> mat_holds_on m1 C1 (in_tri t) c1 -> mwritable_on C1 (in_tri t) ->
  disjoint (mcells A1) (mcells_on C1 (in_tri t)) -> disjoint (mcells B1) (mcells_on C1 (in_tri t)) ->
  ext0 C2 = ext1 C2 -> ext0 A2 = ext0 C2 -> ext0 B2 = ext0 C2 -> ext1 B2 = ext1 A2 ->
  mat_holds m2 A2 a2 -> mat_holds m2 B2 b2 -> mat_holds_on m2 C2 (in_tri t) c2 -> mwritable_on C2 (in_tri t) ->
  disjoint (mcells A2) (mcells_on C2 (in_tri t)) -> disjoint (mcells B2) (mcells_on C2 (in_tri t)) ->
  succeeds (symmetric_matrix_rank_2k_update A1 B1 C1 t) m1 (fun _ m1' =>
  succeeds (symmetric_matrix_rank_2k_update A2 B2 C2 t) m2 (fun _ m2' =>
    exists r1 r2, mat_holds_on m1' C1 (in_tri t) r1 /\ mat_holds_on m2' C2 (in_tri t) r2 /\
    forall i1 i2 j1 j2, i1 < ext0 C1 -> j1 < ext1 C1 -> i2 < ext0 C2 -> j2 < ext1 C2 -> in_tri t i1 j1 -> in_tri t i2 j2 ->
      ext1 A1 = ext1 A2 -> c1 i1 j1 = c2 i2 j2 -> (forall k, k < ext1 A1 -> a1 i1 k = a2 i2 k) -> (forall k, k < ext1 A1 -> a1 j1 k = a2 j2 k) -> (forall k, k < ext1 A1 -> b1 i1 k = b2 i2 k) -> (forall k, k < ext1 A1 -> b1 j1 k = b2 j2 k) ->
      r1 i1 j1 = r2 i2 j2)).
Proof. exact (@syr2k_row). Qed.
Print Assumptions C104_syr2k.
Definition syr2k_mem : mem F64 := (* test data *)
  mem_of [fl (2) 0; fl (-7) 0; fl (-5) 0; fl (3) 0; fl (6) 0; fl (-1) 0; fl (1) 0; fl (4) 0; qnan; qnan; qnan; qnan; qnan; qnan; qnan; qnan; fl (3) 0; qnan; fl 0 0; fl 0 0; fl 0 0; fl 0 0].
Example C104_syr2k_case :
  succeeds (symmetric_matrix_rank_2k_update (row_major 0 2 2) (row_major 4 2 2) (row_major 14 2 2) Lower) whole_mem (fun _ m1' =>
  succeeds (symmetric_matrix_rank_2k_update (row_major 0 2 2) (row_major 4 2 2) (row_major 14 2 2) Lower) syr2k_mem (fun _ m2' => exists r1 r2, mat_holds_on m1' (row_major 14 2 2) (in_tri Lower) r1 /\ mat_holds_on m2' (row_major 14 2 2) (in_tri Lower) r2 /\ (r1 1 0 : F64) = r2 1 0)).
Proof.
  eapply wp_conseq; [apply (C104_syr2k F64 whole_mem syr2k_mem (row_major 0 2 2) (row_major 0 2 2) (row_major 4 2 2) (row_major 4 2 2) (row_major 14 2 2) (row_major 14 2 2) Lower (fm [[fl (2) 0; fl (-7) 0]; [fl (-5) 0; fl (3) 0]]) (fm [[fl (2) 0; fl (-7) 0]; [fl (-5) 0; fl (3) 0]]) (fm [[fl (6) 0; fl (-1) 0]; [fl (1) 0; fl (4) 0]]) (fm [[fl (6) 0; fl (-1) 0]; [fl (1) 0; fl (4) 0]]) (fm [[fl (1) 0; fl (-2) 0]; [fl (3) 0; fl (-4) 0]]) (fm [[qnan; qnan]; [fl (3) 0; qnan]])); unfold syr2k_mem; conc|].
  intros u m1' K. eapply wp_conseq; [exact K|]. intros u2 m2' (r1 & r2 & K1 & K2 & K3). exists r1, r2. split; [exact K1|split; [exact K2|]].
  apply K3; conc.
Qed.

(** C += A B^H + B A^H on one triangle *)
Theorem C104_her2k : forall (O : ops) (m1 m2 : mem O) A1 A2 B1 B2 C1 C2 t a1 a2 b1 b2 c1 c2,
  ext0 C1 = ext1 C1 -> ext0 A1 = ext0 C1 -> ext0 B1 = ext0 C1 -> ext1 B1 = ext1 A1 ->
  mat_holds m1 A1 a1 -> mat_holds m1 B1 b1 -> mat_holds_on m1 C1 (in_tri t) c1 -> mwritable_on C1 (in_tri t) ->
  disjoint (mcells A1) (mcells_on C1 (in_tri t)) -> disjoint (mcells B1) (mcells_on C1 (in_tri t)) ->
  ext0 C2 = ext1 C2 -> ext0 A2 = ext0 C2 -> ext0 B2 = ext0 C2 -> ext1 B2 = ext1 A2 ->
  mat_holds m2 A2 a2 -> mat_holds m2 B2 b2 -> mat_holds_on m2 C2 (in_tri t) c2 -> mwritable_on C2 (in_tri t) ->
  disjoint (mcells A2) (mcells_on C2 (in_tri t)) -> disjoint (mcells B2) (mcells_on C2 (in_tri t)) ->
  succeeds (hermitian_matrix_rank_2k_update A1 B1 C1 t) m1 (fun _ m1' =>
  succeeds (hermitian_matrix_rank_2k_update A2 B2 C2 t) m2 (fun _ m2' =>
    exists r1 r2, mat_holds_on m1' C1 (in_tri t) r1 /\ mat_holds_on m2' C2 (in_tri t) r2 /\
    forall i1 i2 j1 j2, i1 < ext0 C1 -> j1 < ext1 C1 -> i2 < ext0 C2 -> j2 < ext1 C2 -> in_tri t i1 j1 -> in_tri t i2 j2 ->
      (i1 = j1 <-> i2 = j2) -> ext1 A1 = ext1 A2 -> c1 i1 j1 = c2 i2 j2 -> (forall k, k < ext1 A1 -> a1 i1 k = a2 i2 k) -> (forall k, k < ext1 A1 -> a1 j1 k = a2 j2 k) -> (forall k, k < ext1 A1 -> b1 i1 k = b2 i2 k) -> (forall k, k < ext1 A1 -> b1 j1 k = b2 j2 k) ->
      r1 i1 j1 = r2 i2 j2)).
Proof. exact (@her2k_row). Qed.
Print Assumptions C104_her2k.
Definition her2k_mem : mem F64 := (* test data *)
  mem_of [fl (2) 0; fl (-7) 0; fl (-5) 0; fl (3) 0; fl (6) 0; fl (-1) 0; fl (1) 0; fl (4) 0; qnan; qnan; qnan; qnan; qnan; qnan; qnan; qnan; fl (3) 0; qnan; fl 0 0; fl 0 0; fl 0 0; fl 0 0].
Example C104_her2k_case :
  succeeds (hermitian_matrix_rank_2k_update (row_major 0 2 2) (row_major 4 2 2) (row_major 14 2 2) Lower) whole_mem (fun _ m1' =>
  succeeds (hermitian_matrix_rank_2k_update (row_major 0 2 2) (row_major 4 2 2) (row_major 14 2 2) Lower) her2k_mem (fun _ m2' => exists r1 r2, mat_holds_on m1' (row_major 14 2 2) (in_tri Lower) r1 /\ mat_holds_on m2' (row_major 14 2 2) (in_tri Lower) r2 /\ (r1 1 0 : F64) = r2 1 0)).
Proof.
  eapply wp_conseq; [apply (C104_her2k F64 whole_mem her2k_mem (row_major 0 2 2) (row_major 0 2 2) (row_major 4 2 2) (row_major 4 2 2) (row_major 14 2 2) (row_major 14 2 2) Lower (fm [[fl (2) 0; fl (-7) 0]; [fl (-5) 0; fl (3) 0]]) (fm [[fl (2) 0; fl (-7) 0]; [fl (-5) 0; fl (3) 0]]) (fm [[fl (6) 0; fl (-1) 0]; [fl (1) 0; fl (4) 0]]) (fm [[fl (6) 0; fl (-1) 0]; [fl (1) 0; fl (4) 0]]) (fm [[fl (1) 0; fl (-2) 0]; [fl (3) 0; fl (-4) 0]]) (fm [[qnan; qnan]; [fl (3) 0; qnan]])); unfold her2k_mem; conc|].
  intros u m1' K. eapply wp_conseq; [exact K|]. intros u2 m2' (r1 & r2 & K1 & K2 & K3). exists r1, r2. split; [exact K1|split; [exact K2|]].
  apply K3; conc.
Qed.

(** T x = b: an unknown depends on its row, and on all of whatever the preceding unknowns depend on *)
Theorem C104_trsv : forall (O : ops) ty (m1 m2 : mem O) A1 A2 t d B1 B2 X1 X2 a1 a2 b1 b2,
  fits ty (ext0 A1) -> (ext0 A1 = 0 -> t = Upper -> ty <> U32) ->
  ext0 A1 = ext1 A1 -> vext B1 = ext0 A1 -> vext X1 = ext0 A1 ->
  mat_holds_on m1 A1 (stored t d) a1 -> vec_holds m1 B1 b1 -> vwritable X1 -> allocated m1 (vcells X1) ->
  disjoint (mcells_on A1 (stored t d)) (vcells X1) -> disjoint_or_aligned_v B1 X1 ->
  fits ty (ext0 A2) -> (ext0 A2 = 0 -> t = Upper -> ty <> U32) ->
  ext0 A2 = ext1 A2 -> vext B2 = ext0 A2 -> vext X2 = ext0 A2 ->
  mat_holds_on m2 A2 (stored t d) a2 -> vec_holds m2 B2 b2 -> vwritable X2 -> allocated m2 (vcells X2) ->
  disjoint (mcells_on A2 (stored t d)) (vcells X2) -> disjoint_or_aligned_v B2 X2 ->
  succeeds (triangular_matrix_vector_solve ty A1 t d B1 X1) m1 (fun _ m1' =>
  succeeds (triangular_matrix_vector_solve ty A2 t d B2 X2) m2 (fun _ m2' =>
    exists r1 r2, vec_holds m1' X1 r1 /\ vec_holds m2' X2 r2 /\
    forall i, i < vext X1 -> i < vext X2 ->
      ext1 A1 = ext1 A2 -> (forall p k, p < ext0 A1 -> k < ext1 A1 -> in_tri t i p -> stored t d p k -> a1 p k = a2 p k) -> (forall p, p < ext0 A1 -> in_tri t i p -> b1 p = b2 p) ->
      r1 i = r2 i)).
Proof. exact (@trsv_row). Qed.
Print Assumptions C104_trsv.
Definition trsv_mem : mem F64 := (* test data *)
  mem_of [fl (2) 0; qnan; qnan; qnan; qnan; qnan; qnan; qnan; qnan; qnan; fl (4) 0; qnan; qnan; qnan; qnan; qnan; qnan; qnan; fl 0 0; fl 0 0; fl 0 0; fl 0 0].
Example C104_trsv_case :
  succeeds (triangular_matrix_vector_solve I32 (row_major 0 2 2) Lower Explicit (vec_at 10 2) (vec_at 8 2)) whole_mem (fun _ m1' =>
  succeeds (triangular_matrix_vector_solve I32 (row_major 0 2 2) Lower Explicit (vec_at 10 2) (vec_at 8 2)) trsv_mem (fun _ m2' => exists r1 r2, vec_holds m1' (vec_at 8 2) r1 /\ vec_holds m2' (vec_at 8 2) r2 /\ (r1 0 : F64) = r2 0)).
Proof.
  eapply wp_conseq; [apply (C104_trsv F64 I32 whole_mem trsv_mem (row_major 0 2 2) (row_major 0 2 2) Lower Explicit (vec_at 10 2) (vec_at 10 2) (vec_at 8 2) (vec_at 8 2) (fm [[fl (2) 0; fl (-7) 0]; [fl (-5) 0; fl (3) 0]]) (fm [[fl (2) 0; qnan]; [qnan; qnan]]) (fv [fl (4) 0; fl (-5) 0]) (fv [fl (4) 0; qnan])); unfold trsv_mem; conc|].
  intros u m1' K. eapply wp_conseq; [exact K|]. intros u2 m2' (r1 & r2 & K1 & K2 & K3). exists r1, r2. split; [exact K1|split; [exact K2|]].
  apply K3; conc.
Qed.

(** T X = B *)
Theorem C104_trsm_left : forall (O : ops) ty (m1 m2 : mem O) A1 A2 t d B1 B2 X1 X2 a1 a2 b1 b2,
  fits ty (ext0 A1) -> (ext0 A1 = 0 -> t = Upper -> ty <> U32) ->
  ext0 A1 = ext1 A1 -> ext0 B1 = ext0 A1 -> ext0 X1 = ext0 A1 -> ext1 X1 = ext1 B1 ->
  mat_holds_on m1 A1 (stored t d) a1 -> mat_holds m1 B1 b1 -> mwritable X1 -> allocated m1 (mcells X1) ->
  disjoint (mcells_on A1 (stored t d)) (mcells X1) -> disjoint_or_aligned_m B1 X1 ->
  fits ty (ext0 A2) -> (ext0 A2 = 0 -> t = Upper -> ty <> U32) ->
  ext0 A2 = ext1 A2 -> ext0 B2 = ext0 A2 -> ext0 X2 = ext0 A2 -> ext1 X2 = ext1 B2 ->
  mat_holds_on m2 A2 (stored t d) a2 -> mat_holds m2 B2 b2 -> mwritable X2 -> allocated m2 (mcells X2) ->
  disjoint (mcells_on A2 (stored t d)) (mcells X2) -> disjoint_or_aligned_m B2 X2 ->
  succeeds (triangular_matrix_matrix_left_solve ty A1 t d B1 X1) m1 (fun _ m1' =>
  succeeds (triangular_matrix_matrix_left_solve ty A2 t d B2 X2) m2 (fun _ m2' =>
    exists r1 r2, mat_holds m1' X1 r1 /\ mat_holds m2' X2 r2 /\
    forall i j1 j2, i < ext0 X1 -> j1 < ext1 X1 -> i < ext0 X2 -> j2 < ext1 X2 ->
      ext1 A1 = ext1 A2 -> (forall p k, p < ext0 A1 -> k < ext1 A1 -> in_tri t i p -> stored t d p k -> a1 p k = a2 p k) -> (forall p, p < ext0 A1 -> in_tri t i p -> b1 p j1 = b2 p j2) ->
      r1 i j1 = r2 i j2)).
Proof. exact (@trsm_left_row). Qed.
Print Assumptions C104_trsm_left.
Definition trsm_left_mem : mem F64 := (* test data *)
  mem_of [fl (2) 0; qnan; qnan; qnan; qnan; qnan; qnan; qnan; qnan; qnan; qnan; qnan; qnan; qnan; qnan; fl (1) 0; qnan; qnan; fl 0 0; fl 0 0; fl 0 0; fl 0 0].
Example C104_trsm_left_case :
  succeeds (triangular_matrix_matrix_left_solve I32 (row_major 0 2 2) Lower Explicit (row_major 14 2 2) (row_major 18 2 2)) whole_mem (fun _ m1' =>
  succeeds (triangular_matrix_matrix_left_solve I32 (row_major 0 2 2) Lower Explicit (row_major 14 2 2) (row_major 18 2 2)) trsm_left_mem (fun _ m2' => exists r1 r2, mat_holds m1' (row_major 18 2 2) r1 /\ mat_holds m2' (row_major 18 2 2) r2 /\ (r1 0 0 : F64) = r2 0 1)).
Proof.
  eapply wp_conseq; [apply (C104_trsm_left F64 I32 whole_mem trsm_left_mem (row_major 0 2 2) (row_major 0 2 2) Lower Explicit (row_major 14 2 2) (row_major 14 2 2) (row_major 18 2 2) (row_major 18 2 2) (fm [[fl (2) 0; fl (-7) 0]; [fl (-5) 0; fl (3) 0]]) (fm [[fl (2) 0; qnan]; [qnan; qnan]]) (fm [[fl (1) 0; fl (-2) 0]; [fl (3) 0; fl (-4) 0]]) (fm [[qnan; fl (1) 0]; [qnan; qnan]])); unfold trsm_left_mem; conc|].
  intros u m1' K. eapply wp_conseq; [exact K|]. intros u2 m2' (r1 & r2 & K1 & K2 & K3). exists r1, r2. split; [exact K1|split; [exact K2|]].
  apply K3; conc.
Qed.

(** X T = B *)
Theorem C104_trsm_right : forall (O : ops) ty (m1 m2 : mem O) A1 A2 t d B1 B2 X1 X2 a1 a2 b1 b2,
  (t = Lower -> fits (make_signed ty) (ext0 A1)) ->
  ext0 A1 = ext1 A1 -> ext1 B1 = ext0 A1 -> ext1 X1 = ext0 A1 -> ext0 X1 = ext0 B1 ->
  mat_holds_on m1 A1 (stored t d) a1 -> mat_holds m1 B1 b1 -> mwritable X1 -> allocated m1 (mcells X1) ->
  disjoint (mcells_on A1 (stored t d)) (mcells X1) -> disjoint_or_aligned_m B1 X1 ->
  (t = Lower -> fits (make_signed ty) (ext0 A2)) ->
  ext0 A2 = ext1 A2 -> ext1 B2 = ext0 A2 -> ext1 X2 = ext0 A2 -> ext0 X2 = ext0 B2 ->
  mat_holds_on m2 A2 (stored t d) a2 -> mat_holds m2 B2 b2 -> mwritable X2 -> allocated m2 (mcells X2) ->
  disjoint (mcells_on A2 (stored t d)) (mcells X2) -> disjoint_or_aligned_m B2 X2 ->
  succeeds (triangular_matrix_matrix_right_solve ty A1 t d B1 X1) m1 (fun _ m1' =>
  succeeds (triangular_matrix_matrix_right_solve ty A2 t d B2 X2) m2 (fun _ m2' =>
    exists r1 r2, mat_holds m1' X1 r1 /\ mat_holds m2' X2 r2 /\
    forall i1 i2 j, i1 < ext0 X1 -> j < ext1 X1 -> i2 < ext0 X2 -> j < ext1 X2 ->
      ext1 A1 = ext1 A2 -> (forall p k, p < ext0 A1 -> k < ext1 A1 -> in_tri t k j -> stored t d p k -> a1 p k = a2 p k) -> (forall p, p < ext0 A1 -> in_tri t p j -> b1 i1 p = b2 i2 p) ->
      r1 i1 j = r2 i2 j)).
Proof. exact (@trsm_right_row). Qed.
Print Assumptions C104_trsm_right.
Definition trsm_right_mem : mem F64 := (* test data *)
  mem_of [qnan; qnan; qnan; fl (3) 0; qnan; qnan; qnan; qnan; qnan; qnan; qnan; qnan; qnan; qnan; qnan; fl (-4) 0; qnan; qnan; fl 0 0; fl 0 0; fl 0 0; fl 0 0].
Example C104_trsm_right_case :
  succeeds (triangular_matrix_matrix_right_solve I32 (row_major 0 2 2) Lower Explicit (row_major 14 2 2) (row_major 18 2 2)) whole_mem (fun _ m1' =>
  succeeds (triangular_matrix_matrix_right_solve I32 (row_major 0 2 2) Lower Explicit (row_major 14 2 2) (row_major 18 2 2)) trsm_right_mem (fun _ m2' => exists r1 r2, mat_holds m1' (row_major 18 2 2) r1 /\ mat_holds m2' (row_major 18 2 2) r2 /\ (r1 1 1 : F64) = r2 0 1)).
Proof.
  eapply wp_conseq; [apply (C104_trsm_right F64 I32 whole_mem trsm_right_mem (row_major 0 2 2) (row_major 0 2 2) Lower Explicit (row_major 14 2 2) (row_major 14 2 2) (row_major 18 2 2) (row_major 18 2 2) (fm [[fl (2) 0; fl (-7) 0]; [fl (-5) 0; fl (3) 0]]) (fm [[qnan; qnan]; [qnan; fl (3) 0]]) (fm [[fl (1) 0; fl (-2) 0]; [fl (3) 0; fl (-4) 0]]) (fm [[qnan; fl (-4) 0]; [qnan; qnan]])); unfold trsm_right_mem; conc|].
  intros u m1' K. eapply wp_conseq; [exact K|]. intros u2 m2' (r1 & r2 & K1 & K2 & K3). exists r1, r2. split; [exact K1|split; [exact K2|]].
  apply K3; conc.
Qed.

