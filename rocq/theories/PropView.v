(** Properties C01-C05: view-creating functions. *)
From Coq Require Import List Arith ZArith Lia Bool.
From Verif Require Import Mem Scalar View Spec Wp PfBlas1 PfView Inst.
Import ListNotations.

(** * C01 *)
Theorem C01_scaled_vector_read : forall (O : ops) (alpha : O) (x : vec O) (i : nat) (m : mem O),
  run (vget (scaled_v alpha x) i) m =
  match run (vget x i) m with Ok v m' => Ok (alpha * v)%sc m' | Err e m' => Err e m' end.
Proof. exact (@vget_scaled). Qed.
Print Assumptions C01_scaled_vector_read.

Theorem C01_scaled_matrix_read : forall (O : ops) (alpha : O) (A : mat O) (i j : nat) (m : mem O),
  run (mget (scaled_m alpha A) i j) m =
  match run (mget A i j) m with Ok v m' => Ok (alpha * v)%sc m' | Err e m' => Err e m' end.
Proof. exact (@mget_scaled). Qed.
Print Assumptions C01_scaled_matrix_read.

Theorem C01_scaled_vector : forall (O : ops) (m : mem O) (alpha : O) (x : vec O) (f : nat -> O),
  vec_holds m x f -> vec_holds m (scaled_v alpha x) (fun i => (alpha * f i)%sc).
Proof. exact (@scaled_v_holds). Qed.
Print Assumptions C01_scaled_vector.

Theorem C01_scaled_matrix : forall (O : ops) (m : mem O) (alpha : O) (A : mat O) P (f : nat -> nat -> O),
  mat_holds_on m A P f -> mat_holds_on m (scaled_m alpha A) P (fun i j => (alpha * f i j)%sc).
Proof. exact (@scaled_m_holds). Qed.
Print Assumptions C01_scaled_matrix.

(** Writes to the underlying object are visible through the view. *)
Theorem C01_scaled_vector_lazy : forall (O : ops) (m : mem O) (alpha : O) (x : vec O) (f : nat -> O) (i : nat) (v : O),
  vec_holds m x f -> vwritable x -> i < vext x ->
  succeeds (bind (vset x i v) (fun _ => vget (scaled_v alpha x) i)) m
    (fun r m' => r = (alpha * v)%sc /\ changes_only m m' (vcells x)).
Proof. exact (@scaled_v_lazy). Qed.
Print Assumptions C01_scaled_vector_lazy.

Theorem C01_scaled_matrix_lazy : forall (O : ops) (m : mem O) (alpha : O) (A : mat O) f (i j : nat) (v : O),
  mat_holds m A f -> mwritable A -> i < ext0 A -> j < ext1 A ->
  succeeds (bind (mset A i j v) (fun _ => mget (scaled_m alpha A) i j)) m
    (fun r m' => r = (alpha * v)%sc /\ changes_only m m' (mcells A)).
Proof. exact (@scaled_m_lazy). Qed.
Print Assumptions C01_scaled_matrix_lazy.

(** The view has the extents and element addresses of x and cannot be written. *)
Theorem C01_scaled_shape : forall (O : ops) (alpha : O) (x : vec O) (A : mat O),
  vext (scaled_v alpha x) = vext x /\ (forall i, vaddr (scaled_v alpha x) i = vaddr x i) /\
  ext0 (scaled_m alpha A) = ext0 A /\ ext1 (scaled_m alpha A) = ext1 A /\
  (forall i j, maddr (scaled_m alpha A) i j = maddr A i j) /\
  (forall i v m, run (vset (scaled_v alpha x) i v) m = Err NotWritable m) /\
  (forall i j v m, run (mset (scaled_m alpha A) i j v) m = Err NotWritable m).
Proof. repeat split. Qed.
Print Assumptions C01_scaled_shape.

Example C01_case :
  let m : mem zops := mem_of [5; 7; 11]%Z in
  let x := scaled_v (3%Z : zops) (scaled_v (2%Z : zops) (vec_at 1 2)) in
  vec_holds m x (zv [3 * (2 * 7); 3 * (2 * 11)]%Z) /\
  run (vget x 1) m = Ok 66%Z m /\ run (vget x 2) m = Err OutOfBounds m.
Proof.
  split; [|split; reflexivity]. concrete.
Qed.

(** * C02 *)
Theorem C02_conjugated_vector : forall (O : ops) (m : mem O) (fix_nc nc : bool) (x : vec O) (f : nat -> O),
  (forall v : O, conj (conj v) = v) -> (nc = true -> forall v : O, conj v = v) ->
  vec_holds m x f -> vec_holds m (conjugated_v fix_nc nc x) (fun i => conj (f i)).
Proof. exact (@conjugated_v_holds). Qed.
Print Assumptions C02_conjugated_vector.

Theorem C02_conjugated_matrix : forall (O : ops) (m : mem O) (fix_nc nc : bool) (A : mat O) P f,
  (forall v : O, conj (conj v) = v) -> (nc = true -> forall v : O, conj v = v) ->
  mat_holds_on m A P f -> mat_holds_on m (conjugated_m fix_nc nc A) P (fun i j => conj (f i j)).
Proof. exact (@conjugated_m_holds). Qed.
Print Assumptions C02_conjugated_matrix.

Theorem C02_conjugated_shape : forall (O : ops) (fix_nc nc : bool) (x : vec O) (A : mat O),
  vext (conjugated_v fix_nc nc x) = vext x /\ (forall i, vaddr (conjugated_v fix_nc nc x) i = vaddr x i) /\
  ext0 (conjugated_m fix_nc nc A) = ext0 A /\ ext1 (conjugated_m fix_nc nc A) = ext1 A /\
  (forall i j, maddr (conjugated_m fix_nc nc A) i j = maddr A i j).
Proof. repeat split. Qed.
Print Assumptions C02_conjugated_shape.

Theorem C02_conjugated_vector_twice : forall (O : ops) (fix_nc nc : bool) (x : vec O),
  (forall v : O, conj (conj v) = v) -> (nc = true -> forall v : O, conj v = v) ->
  let x2 := conjugated_v fix_nc nc (conjugated_v fix_nc nc x) in
  vext x2 = vext x /\ (forall i, vaddr x2 i = vaddr x i) /\
  (forall m f, vec_holds m x f <-> vec_holds m x2 f) /\
  (vwritable x -> vwritable x2).
Proof. exact (@conjugated_v_twice). Qed.
Print Assumptions C02_conjugated_vector_twice.

Theorem C02_conjugated_matrix_twice : forall (O : ops) (fix_nc nc : bool) (A : mat O),
  (forall v : O, conj (conj v) = v) -> (nc = true -> forall v : O, conj v = v) ->
  let A2 := conjugated_m fix_nc nc (conjugated_m fix_nc nc A) in
  ext0 A2 = ext0 A /\ ext1 A2 = ext1 A /\ (forall i j, maddr A2 i j = maddr A i j) /\
  (forall m f, mat_holds m A f <-> mat_holds m A2 f) /\
  (mwritable A -> mwritable A2).
Proof. exact (@conjugated_m_twice). Qed.
Print Assumptions C02_conjugated_matrix_twice.

Example C02_case :
  let m : mem gops := mem_of [(1, 2); (3, -4)]%Z in
  vec_holds m (conjugated_v true false (vec_at 0 2)) (gv [(1, -2); (3, 4)]%Z) /\
  vec_holds m (conjugated_v false false (scaled_v ((0, 1)%Z : gops) (vec_at 0 2)))
    (gv [(-2, -1); (4, -3)]%Z) /\
  vwritable (conjugated_v true false (conjugated_v true false (vec_at (O := gops) 0 2))).
Proof. split; [|split]; concrete. Qed.

(** * C03 *)
Theorem C03_transposed_cells : forall (O : ops) (fixp : bool) (A At : mat O) (i j : nat),
  transposed fixp A = Some At -> layout_ok (mlay A) (ext0 A) (ext1 A) -> i < ext0 A -> j < ext1 A ->
  maddr At j i = maddr A i j.
Proof. exact (@transposed_maddr). Qed.
Print Assumptions C03_transposed_cells.

Theorem C03_transposed_shape : forall (O : ops) (fixp : bool) (A At : mat O),
  transposed fixp A = Some At -> ext0 At = ext1 A /\ ext1 At = ext0 A /\ macc At = macc A /\ mbase At = mbase A.
Proof. exact (@transposed_ext). Qed.
Print Assumptions C03_transposed_shape.

Theorem C03_transposed_reads : forall (O : ops) (fixp : bool) (m : mem O) (A At : mat O) (P : nat -> nat -> Prop) a,
  transposed fixp A = Some At -> layout_ok (mlay A) (ext0 A) (ext1 A) ->
  mat_holds_on m A P a -> mat_holds_on m At (fun j i => P i j) (fun j i => a i j).
Proof. exact (@transposed_holds). Qed.
Print Assumptions C03_transposed_reads.

(** transposed() is available for every layout except a layout_transpose. *)
Theorem C03_transposed_defined : forall (O : ops) (fixp : bool) (A : mat O),
  (forall l, mlay A <> LTrans l) -> exists At, transposed fixp A = Some At.
Proof.
  intros O fixp A H. unfold transposed. destruct (mlay A); simpl; eauto. exfalso; eapply H; eauto.
Qed.
Print Assumptions C03_transposed_defined.

(** Twice, wherever the second call compiles. *)
Theorem C03_transposed_twice_partial : forall (O : ops) (fixp : bool) (A At Att : mat O) (i j : nat),
  transposed fixp A = Some At -> transposed fixp At = Some Att ->
  layout_ok (mlay A) (ext0 A) (ext1 A) -> i < ext0 A -> j < ext1 A ->
  ext0 Att = ext0 A /\ ext1 Att = ext1 A /\ macc Att = macc A /\ maddr Att i j = maddr A i j.
Proof. exact (@transposed_twice_addr). Qed.
Print Assumptions C03_transposed_twice_partial.

(** The second call compiles for left, right, strided and (with the padded specialisations) padded
    layouts. *)
Theorem C03_transposed_twice_defined : forall (O : ops) (fixp : bool) (A At : mat O),
  transposed fixp A = Some At ->
  match mlay A with
  | LLeft | LRight | LStride _ _ => True
  | LLeftPad _ | LRightPad _ => fixp = true
  | LTrans _ | LUser _ => False
  end ->
  exists Att, transposed fixp At = Some Att.
Proof.
  intros O fixp A At H HL. unfold transposed in *.
  destruct (mlay A); simpl in *; try contradiction; subst; inversion H; subst; simpl; eauto.
Qed.
Print Assumptions C03_transposed_twice_defined.

(** For any other layout (here: a user-defined one) transposed(transposed(A)) is not available: the
    full statement fails. *)
Theorem C03_transposed_twice_refuted : exists (O : ops) (A At : mat O),
  transposed true A = Some At /\ transposed true At = None /\ layout_ok (mlay A) (ext0 A) (ext1 A) /\
  layout_unique (mlay A) (ext0 A) (ext1 A).
Proof.
  exists zops, (Mat 0 2 2 (LUser (fun i j => i + 2 * j)) ADefault),
         (Mat 0 2 2 (LTrans (LUser (fun i j => i + 2 * j))) ADefault).
  repeat split; simpl in *; lia.
Qed.
Print Assumptions C03_transposed_twice_refuted.

Example C03_case :
  let A : mat zops := Mat 10 2 3 (LLeftPad 4) ADefault in
  exists At Att, transposed true A = Some At /\ transposed true At = Some Att /\
    layout_ok (mlay A) (ext0 A) (ext1 A) /\
    maddr A 1 2 = 19 /\ maddr At 2 1 = 19 /\ maddr Att 1 2 = 19.
Proof. do 2 eexists. repeat split. simpl; lia. Qed.

(** * C04 *)
Theorem C04_conjugate_transposed : forall (O : ops) (fixp fix_nc nc : bool) (m : mem O) (A Ah : mat O) (P : nat -> nat -> Prop) a,
  (forall v : O, conj (conj v) = v) -> (nc = true -> forall v : O, conj v = v) ->
  conjugate_transposed fixp fix_nc nc A = Some Ah -> layout_ok (mlay A) (ext0 A) (ext1 A) ->
  mat_holds_on m A P a ->
  ext0 Ah = ext1 A /\ ext1 Ah = ext0 A /\
  mat_holds_on m Ah (fun j i => P i j) (fun j i => conj (a i j)).
Proof. exact (@conjugate_transposed_holds). Qed.
Print Assumptions C04_conjugate_transposed.

(** Partial in the same way as C03: the second call must compile. *)
Theorem C04_conjugate_transposed_twice_partial : forall (O : ops) (fixp fix_nc nc : bool) (m : mem O) (A Ah Ahh : mat O) a,
  (forall v : O, conj (conj v) = v) -> (nc = true -> forall v : O, conj v = v) ->
  conjugate_transposed fixp fix_nc nc A = Some Ah -> conjugate_transposed fixp fix_nc nc Ah = Some Ahh ->
  layout_ok (mlay A) (ext0 A) (ext1 A) -> mat_holds m A a ->
  ext0 Ahh = ext0 A /\ ext1 Ahh = ext1 A /\ mat_holds m Ahh a.
Proof. exact (@conjugate_transposed_twice). Qed.
Print Assumptions C04_conjugate_transposed_twice_partial.

Theorem C04_conjugate_transposed_twice_refuted : exists (O : ops) (A Ah : mat O),
  conjugate_transposed true true false A = Some Ah /\ conjugate_transposed true true false Ah = None /\
  layout_ok (mlay A) (ext0 A) (ext1 A) /\ layout_unique (mlay A) (ext0 A) (ext1 A).
Proof.
  exists gops, (Mat 0 2 2 (LUser (fun i j => i + 2 * j)) ADefault),
         (Mat 0 2 2 (LTrans (LUser (fun i j => i + 2 * j))) (AConj ADefault)).
  repeat split; simpl in *; lia.
Qed.
Print Assumptions C04_conjugate_transposed_twice_refuted.

Example C04_case :
  let m : mem gops := mem_of [(1, 2); (3, -4)]%Z in
  exists Ah Ahh, conjugate_transposed true true false (row_major (O := gops) 0 1 2) = Some Ah /\
    conjugate_transposed true true false Ah = Some Ahh /\
    mat_holds m (row_major (O := gops) 0 1 2) (gm [[(1, 2); (3, -4)]]%Z) /\
    mat_holds m Ah (gm [[(1, -2)]; [(3, 4)]]%Z) /\
    mat_holds m Ahh (gm [[(1, 2); (3, -4)]]%Z).
Proof. do 2 eexists. repeat split; try concrete. Qed.

(** * C05 *)
Theorem C05_transposed_offset : forall (fixp : bool) (l : layout) (e0 e1 : nat) (l' : layout) (i j : nat),
  transposed_layout fixp l e0 e1 = Some l' -> layout_ok l e0 e1 -> i < e0 -> j < e1 ->
  off l' e1 e0 j i = off l e0 e1 i j.
Proof. exact transposed_off. Qed.
Print Assumptions C05_transposed_offset.

Theorem C05_transposed_span : forall (fixp : bool) (l : layout) (e0 e1 : nat) (l' : layout),
  transposed_layout fixp l e0 e1 = Some l' -> layout_ok l e0 e1 -> span_size l' e1 e0 = span_size l e0 e1.
Proof. exact transposed_span. Qed.
Print Assumptions C05_transposed_span.

Theorem C05_transposed_unique : forall (fixp : bool) (l : layout) (e0 e1 : nat) (l' : layout),
  transposed_layout fixp l e0 e1 = Some l' -> layout_ok l e0 e1 -> layout_unique l e0 e1 -> layout_unique l' e1 e0.
Proof. exact transposed_unique. Qed.
Print Assumptions C05_transposed_unique.

Theorem C05_transposed_stride : forall (fixp : bool) (l : layout) (e0 e1 : nat) (l' : layout) (r : bool),
  transposed_layout fixp l e0 e1 = Some l' -> layout_ok l e0 e1 -> 0 < e0 -> 0 < e1 ->
  stride l' e1 e0 r = stride l e0 e1 (negb r).
Proof. exact transposed_stride. Qed.
Print Assumptions C05_transposed_stride.

Theorem C05_transposed_valid : forall (fixp : bool) (l : layout) (e0 e1 : nat) (l' : layout),
  transposed_layout fixp l e0 e1 = Some l' -> layout_ok l e0 e1 -> layout_ok l' e1 e0.
Proof. exact transposed_ok. Qed.
Print Assumptions C05_transposed_valid.

Theorem C05_offset_by_strides : forall (l : layout) (e0 e1 s0 s1 : nat),
  stride l e0 e1 false = Some s0 -> stride l e0 e1 true = Some s1 ->
  forall i j, off l e0 e1 i j = i * s0 + j * s1.
Proof. exact off_stride. Qed.
Print Assumptions C05_offset_by_strides.

Theorem C05_offset_in_span : forall (l : layout) (e0 e1 n : nat),
  span_size l e0 e1 = Some n -> layout_ok l e0 e1 ->
  forall i j, i < e0 -> j < e1 -> off l e0 e1 i j < n.
Proof. exact off_lt_span. Qed.
Print Assumptions C05_offset_in_span.

Theorem C05_standard_layouts_unique : forall (l : layout) (e0 e1 : nat), layout_ok l e0 e1 ->
  match l with LLeft | LRight | LLeftPad _ | LRightPad _ => layout_unique l e0 e1 | _ => True end.
Proof. exact layout_unique_std. Qed.
Print Assumptions C05_standard_layouts_unique.

Example C05_case :
  transposed_layout true (LRightPad 5) 3 4 = Some (LLeftPad 5) /\ layout_ok (LRightPad 5) 3 4 /\
  span_size (LRightPad 5) 3 4 = Some 14 /\ off (LRightPad 5) 3 4 2 3 = 13 /\
  off (LLeftPad 5) 4 3 3 2 = 13 /\ stride (LLeftPad 5) 4 3 true = Some 5 /\
  transposed_layout false (LRightPad 5) 3 4 = Some (LTrans (LRightPad 5)) /\
  stride (LTrans (LRightPad 5)) 4 3 true = Some 5.
Proof. repeat split; simpl; lia. Qed.
