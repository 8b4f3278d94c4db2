(** Property C82: what has been carried out when an overload of the Kokkos back end returns. *)
From Coq Require Import List Arith ZArith Lia Bool Relations.
From Verif Require Import Mem Scalar View Spec Wp Sums Par PfPar KK SpecK KKBlas KKNorm Async SpecA PfAsync PfKK3 PfKK5 PropKK PfKKBlas Inst.
Import ListNotations.
Local Open Scope nat_scope.

Theorem C82_updates : forall (O : ops) al x y A B C t,
  complete_on_return (@h_matrix_rank_1_update O x y A) (kk_matrix_rank_1_update x y A) /\
  complete_on_return (h_matrix_rank_1_update_conj x y A) (kk_matrix_rank_1_update_conj x y A) /\
  complete_on_return (h_symmetric_matrix_rank_1_update x A t) (kk_symmetric_matrix_rank_1_update x A t) /\
  complete_on_return (h_hermitian_matrix_rank_1_update x A t) (kk_hermitian_matrix_rank_1_update x A t) /\
  complete_on_return (h_symmetric_matrix_rank_2_update x y A t) (kk_symmetric_matrix_rank_2_update x y A t) /\
  complete_on_return (h_hermitian_matrix_rank_2_update x y A t) (kk_hermitian_matrix_rank_2_update x y A t) /\
  complete_on_return (h_symmetric_matrix_rank_k_update al A C t) (kk_symmetric_matrix_rank_k_update al A C t) /\
  complete_on_return (h_hermitian_matrix_rank_k_update al A C t) (kk_hermitian_matrix_rank_k_update al A C t) /\
  complete_on_return (h_symmetric_matrix_rank_2k_update A B C t) (kk_symmetric_matrix_rank_2k_update A B C t) /\
  complete_on_return (h_hermitian_matrix_rank_2k_update A B C t) (kk_hermitian_matrix_rank_2k_update A B C t).
Proof. intros. repeat (split; [apply fenced_complete|]). apply fenced_complete. Qed.
Print Assumptions C82_updates.

Theorem C82_matrix_vector_products : forall (O : ops) A t d x y z,
  complete_on_return (@h_matrix_vector_product_upd O A x y z) (kk_matrix_vector_product_upd A x y z) /\
  complete_on_return (h_symmetric_matrix_vector_product A t x y) (kk_symmetric_matrix_vector_product A t x y) /\
  complete_on_return (h_symmetric_matrix_vector_product_upd A t x y z) (kk_symmetric_matrix_vector_product_upd A t x y z) /\
  complete_on_return (h_hermitian_matrix_vector_product A t x y) (kk_hermitian_matrix_vector_product A t x y) /\
  complete_on_return (h_hermitian_matrix_vector_product_upd A t x y z) (kk_hermitian_matrix_vector_product_upd A t x y z) /\
  complete_on_return (h_triangular_matrix_vector_product A t d x y) (kk_triangular_matrix_vector_product A t d x y) /\
  complete_on_return (h_triangular_matrix_vector_product_upd A t d x y z) (kk_triangular_matrix_vector_product_upd A t d x y z).
Proof. intros. repeat (split; [apply fenced_complete|]). apply fenced_complete. Qed.
Print Assumptions C82_matrix_vector_products.

Theorem C82_matrix_products : forall (O : ops) A t B E C,
  complete_on_return (@h_symmetric_matrix_left_product O A t B C) (kk_symmetric_matrix_left_product A t B C) /\
  complete_on_return (h_symmetric_matrix_left_product_upd A t B E C) (kk_symmetric_matrix_left_product_upd A t B E C) /\
  complete_on_return (h_symmetric_matrix_right_product A t B C) (kk_symmetric_matrix_right_product A t B C) /\
  complete_on_return (h_symmetric_matrix_right_product_upd A t B E C) (kk_symmetric_matrix_right_product_upd A t B E C) /\
  complete_on_return (h_hermitian_matrix_left_product A t B C) (kk_hermitian_matrix_left_product A t B C) /\
  complete_on_return (h_hermitian_matrix_left_product_upd A t B E C) (kk_hermitian_matrix_left_product_upd A t B E C) /\
  complete_on_return (h_hermitian_matrix_right_product A t B C) (kk_hermitian_matrix_right_product A t B C) /\
  complete_on_return (h_hermitian_matrix_right_product_upd A t B E C) (kk_hermitian_matrix_right_product_upd A t B E C).
Proof. intros. repeat (split; [apply fenced_complete|]). apply fenced_complete. Qed.
Print Assumptions C82_matrix_products.

(** copy and swap; copies between equal layouts are one call of deep_copy, whose effect is [lib]. *)
Theorem C82_copy_swap : forall (O : ops) (x y : vec O) (A B : mat O),
  complete_on_return (h_copy_2 A B) (kk_copy_2 A B) /\
  complete_on_return (h_swap_1 x y) (kk_swap_1 x y) /\
  complete_on_return (h_swap_2 A B) (kk_swap_2 A B) /\
  (forall lib m q m', returns_with (h_deep_copy_1 x y) lib m q m' ->
     q = [] /\ lib (KCopy1 (view_v y) (view_v x)) m m') /\
  (forall lib m q m', returns_with (h_deep_copy_2 A B) lib m q m' ->
     q = [] /\ exists c, kb_copy_2 A B = KCall c KDone /\ lib c m m').
Proof. exact (@copy_swap_ok). Qed.
Print Assumptions C82_copy_swap.

(** What the theorems about the regions (C45-C55) promise therefore holds at the time of return, and the overload
    does return. *)
Theorem C82_return : forall (O : ops) lib (h : hprog O) p m (Q : mem O -> Prop), complete_on_return h p -> par_succeeds p m Q ->
  forall q m', returns_with h lib m q m' -> q = [] /\ Q m'.
Proof. exact (@fenced_ok). Qed.
Print Assumptions C82_return.
Theorem C82_does_return : forall (O : ops) lib (p : par O) m Q, par_succeeds p m Q ->
  exists m', returns_with (fenced p) lib m [] m'.
Proof. exact (@fenced_can_return). Qed.
Print Assumptions C82_does_return.

(** trmm_left and trmm_right do not wait.  Missing from the full claim: the fence; a caller that fences afterwards
    finds everything carried out. *)
Theorem C82_trmm_partial : forall (O : ops) lib A t B C,
  (forall m q m', returns_with (launch (@kk_triangular_matrix_left_product_unit O A t B C) (HFence HDone)) lib m q m' ->
     q = [] /\ par_result (kk_triangular_matrix_left_product_unit A t B C) m m') /\
  (forall m q m', returns_with (launch (kk_triangular_matrix_right_product_unit A t B C) (HFence HDone)) lib m q m' ->
     q = [] /\ par_result (kk_triangular_matrix_right_product_unit A t B C) m m') /\
  (forall m q m', returns_with (launch (kk_triangular_matrix_left_product_inplace_unit A t C) (HFence HDone)) lib m q m' ->
     q = [] /\ par_result (kk_triangular_matrix_left_product_inplace_unit A t C) m m') /\
  (forall m q m', returns_with (launch (kk_triangular_matrix_right_product_inplace_unit A t C) (HFence HDone)) lib m q m' ->
     q = [] /\ par_result (kk_triangular_matrix_right_product_inplace_unit A t C) m m').
Proof. intros. repeat (split; [intros; eapply unfenced_wait; eassumption|]). intros; eapply unfenced_wait; eassumption. Qed.
Print Assumptions C82_trmm_partial.
(** C = [[1,0],[2,1]] B (C49_disjoint_case) may be entirely unwritten, with both regions queued. *)
Theorem C82_trmm_refuted : exists (A B C : mat zops) m, forall lib,
  par_succeeds (kk_triangular_matrix_left_product_unit A Lower B C) m (fun m' => mat_holds m' C (zm [[5;6];[17;20]]%Z)) /\
  exists q, returns_with (h_triangular_matrix_left_product_unit A Lower B C) lib m q m /\ length q = 2 /\ mat_holds m C (zm [[0;0];[0;0]]%Z).
Proof.
  exists (row_major 0 2 2), (row_major 4 2 2), (col_major 8 2 2), (mem_of [7;9;2;7; 5;6;7;8; 0;0;0;0]%Z). intros lib.
  assert (S : par_succeeds (kk_triangular_matrix_left_product_unit (row_major 0 2 2) Lower (row_major 4 2 2) (col_major 8 2 2))
     (mem_of [7;9;2;7; 5;6;7;8; 0;0;0;0]%Z : mem zops)
     (fun m' => mat_holds m' (col_major 8 2 2 : mat zops) (zm [[5;6];[17;20]]%Z))).
  { eapply par_mono; [apply (@C49_kk_trmm_left zops) with (a := zm [[0;0];[2;0]]%Z) (b := zm [[5;6];[7;8]]%Z); conc|].
    intros m' [H1 H2]. elems2 H1. }
  split; [exact S|]. destruct (@unfenced_early zops lib _ _ _ S) as (q & R & L).
  exists q. split; [exact R|]. split; [rewrite L; reflexivity|]. concrete.
Qed.
Print Assumptions C82_trmm_refuted.
(** The same of the three other overloads: C = B [[1,0],[2,1]], and both products in place on [[5,6],[7,8]]. *)
Theorem C82_trmm_others_refuted : exists (A B C : mat zops) m, forall lib,
  par_succeeds (kk_triangular_matrix_right_product_unit A Lower B C) m (fun m' => mat_holds m' C (zm [[17;6];[23;8]]%Z)) /\
  (exists q, returns_with (h_triangular_matrix_right_product_unit A Lower B C) lib m q m /\ length q = 2 /\ mat_holds m C (zm [[0;0];[0;0]]%Z)) /\
  par_succeeds (kk_triangular_matrix_left_product_inplace_unit A Lower B) m (fun m' => mat_holds m' B (zm [[5;6];[17;20]]%Z)) /\
  (exists q, returns_with (h_triangular_matrix_left_product_inplace_unit A Lower B) lib m q m /\ q <> [] /\ mat_holds m B (zm [[5;6];[7;8]]%Z)) /\
  par_succeeds (kk_triangular_matrix_right_product_inplace_unit A Lower B) m (fun m' => mat_holds m' B (zm [[17;6];[23;8]]%Z)) /\
  (exists q, returns_with (h_triangular_matrix_right_product_inplace_unit A Lower B) lib m q m /\ q <> [] /\ mat_holds m B (zm [[5;6];[7;8]]%Z)).
Proof.
  exists (row_major 0 2 2), (row_major 4 2 2), (col_major 8 2 2), (mem_of [7;9;2;7; 5;6;7;8; 0;0;0;0]%Z). intros lib.
  assert (S1 : par_succeeds (kk_triangular_matrix_right_product_unit (row_major 0 2 2) Lower (row_major 4 2 2) (col_major 8 2 2))
     (mem_of [7;9;2;7; 5;6;7;8; 0;0;0;0]%Z : mem zops)
     (fun m' => mat_holds m' (col_major 8 2 2 : mat zops) (zm [[17;6];[23;8]]%Z))).
  { eapply par_mono; [apply (@C49_kk_trmm_right zops) with (a := zm [[0;0];[2;0]]%Z) (b := zm [[5;6];[7;8]]%Z); conc|].
    intros m' [H1 H2]. elems2 H1. }
  assert (S2 : par_succeeds (kk_triangular_matrix_left_product_inplace_unit (row_major 0 2 2) Lower (row_major 4 2 2))
     (mem_of [7;9;2;7; 5;6;7;8; 0;0;0;0]%Z : mem zops)
     (fun m' => mat_holds m' (row_major 4 2 2 : mat zops) (zm [[5;6];[17;20]]%Z))).
  { eapply par_mono; [apply (@C49_kk_trmm_left_inplace zops) with (a := zm [[0;0];[2;0]]%Z) (c := zm [[5;6];[7;8]]%Z); conc|].
    intros m' [H1 H2]. elems2 H1. }
  assert (S3 : par_succeeds (kk_triangular_matrix_right_product_inplace_unit (row_major 0 2 2) Lower (row_major 4 2 2))
     (mem_of [7;9;2;7; 5;6;7;8; 0;0;0;0]%Z : mem zops)
     (fun m' => mat_holds m' (row_major 4 2 2 : mat zops) (zm [[17;6];[23;8]]%Z))).
  { eapply par_mono; [apply (@C49_kk_trmm_right_inplace zops) with (a := zm [[0;0];[2;0]]%Z) (c := zm [[5;6];[7;8]]%Z); conc|].
    intros m' [H1 H2]. elems2 H1. }
  split; [exact S1|]. split.
  { destruct (@unfenced_early zops lib _ _ _ S1) as (q & R & L).
    exists q. split; [exact R|]. split; [rewrite L; reflexivity|]. concrete. }
  split; [exact S2|]. split.
  { destruct (@unfenced_early zops lib _ _ _ S2) as (q & R & L).
    exists q. split; [exact R|]. split; [intros E; rewrite E in L; discriminate L|]. concrete. }
  split; [exact S3|].
  destruct (@unfenced_early zops lib _ _ _ S3) as (q & R & L).
  exists q. split; [exact R|]. split; [intros E; rewrite E in L; discriminate L|]. concrete.
Qed.
Print Assumptions C82_trmm_others_refuted.
(** Not only there: every call of theirs that can be carried out may return with nothing done. *)
Theorem C82_trmm_early : forall (O : ops) lib A t B C m Q,
  (par_succeeds (@kk_triangular_matrix_left_product_unit O A t B C) m Q ->
     exists q, returns_with (h_triangular_matrix_left_product_unit A t B C) lib m q m) /\
  (par_succeeds (kk_triangular_matrix_right_product_unit A t B C) m Q ->
     exists q, returns_with (h_triangular_matrix_right_product_unit A t B C) lib m q m) /\
  (par_succeeds (kk_triangular_matrix_left_product_inplace_unit A t C) m Q ->
     exists q, returns_with (h_triangular_matrix_left_product_inplace_unit A t C) lib m q m) /\
  (par_succeeds (kk_triangular_matrix_right_product_inplace_unit A t C) m Q ->
     exists q, returns_with (h_triangular_matrix_right_product_inplace_unit A t C) lib m q m).
Proof.
  intros O lib A t B C m Q.
  split; [|split; [|split]]; intros S; destruct (@unfenced_early O lib _ _ _ S) as (q & R & _); exists q; exact R.
Qed.
Print Assumptions C82_trmm_early.

(** Overloads that end with a KokkosBlas call: whatever the call does, the overload can return before it has started. *)
Theorem C82_library_refuted : exists (m : mem zops) (x y z : vec zops) (A B C : mat zops), forall lib,
  (exists c, returns_with (h_add_1 x y z) lib m [Lib c] m) /\
  (exists c, returns_with (h_add_2 A B C) lib m [Lib c] m) /\
  (exists c, returns_with (h_scale_1 (2%Z : zops) x) lib m [Lib c] m) /\
  (exists c, returns_with (h_scale_2 (2%Z : zops) A) lib m [Lib c] m) /\
  (exists c, returns_with (h_matrix_vector_product A x y) lib m [Lib c] m) /\
  (exists c, returns_with (h_matrix_product A B C) lib m [Lib c] m) /\
  (exists c, returns_with (h_triangular_matrix_left_product_inplace A Lower C) lib m [Lib c] m) /\
  (exists c, returns_with (h_triangular_matrix_right_product_inplace A Lower C) lib m [Lib c] m).
Proof.
  exists (mem_of [1;2; 10;20; 0;0; 1;2;3;4; 5;6;7;8; 0;0;0;0]%Z), (vec_at 0 2), (vec_at 2 2), (vec_at 4 2),
    (row_major 6 2 2), (row_major 10 2 2), (row_major 14 2 2). intros lib.
  repeat split; eexists; apply call_early.
Qed.
Print Assumptions C82_library_refuted.
(** Those that first copy (which waits) and then call: the copy is carried out, the call may still be queued. *)
Theorem C82_library_copy_refuted : exists (m : mem zops) (x b : vec zops) (A B X : mat zops), forall lib : kcall zops -> mem zops -> mem zops -> Prop,
  (forall m1, lib (KCopy1 (view_v x) (view_v b)) m m1 ->
     exists c, returns_with (h_triangular_matrix_vector_solve A Lower Explicit b x) lib m [Lib c] m1) /\
  (forall m1, lib (KCopy2 X B) m m1 ->
     (exists c, returns_with (h_triangular_matrix_matrix_left_solve A Lower Explicit B X) lib m [Lib c] m1) /\
     (exists c, returns_with (h_triangular_matrix_matrix_right_solve A Lower Explicit B X) lib m [Lib c] m1) /\
     (exists c, returns_with (h_triangular_matrix_left_product A Lower B X) lib m [Lib c] m1) /\
     (exists c, returns_with (h_triangular_matrix_right_product A Lower B X) lib m [Lib c] m1)).
Proof.
  exists (mem_of [1;2; 10;20; 0;0; 1;2;3;4; 5;6;7;8; 0;0;0;0]%Z), (vec_at 0 2), (vec_at 2 2),
    (row_major 6 2 2), (row_major 10 2 2), (row_major 14 2 2). intros lib. split.
  - intros m1 H. eexists. apply copy_call_early. exact H.
  - intros m1 H. repeat split; eexists; apply copy_call_early; exact H.
Qed.
Print Assumptions C82_library_copy_refuted.
(** A fenced overload on concrete data: A += x y^T has been carried out when the overload returns, and it can return. *)
Example C82_case : forall lib, let m := mem_of [1;2; 10;20;30; 0;0;0;0;0;1]%Z : mem zops in
  let h := h_matrix_rank_1_update (vec_at 0 2) (vec_at 2 3) (row_major 5 2 3) in
  (forall q m', returns_with h lib m q m' -> q = [] /\ m' 5 = Some 10%Z /\ m' 10 = Some 61%Z) /\
  exists m', returns_with h lib m [] m'.
Proof.
  intros lib m h.
  assert (S : par_succeeds (kk_matrix_rank_1_update (vec_at 0 2) (vec_at 2 3) (row_major 5 2 3)) m
    (fun m' => m' 5 = Some 10%Z /\ m' 10 = Some 61%Z)).
  { eapply par_mono; [apply C46_kk_ger with (a := zm [[0;0;0];[0;0;1]]%Z) (f := zv [1;2]%Z) (g := zv [10;20;30]%Z); conc|].
    intros m' [H1 H2]. split; [exact (cell_m (i := 0) (j := 0) H1 eq_refl ltac:(simpl; lia) ltac:(simpl; lia))|exact (cell_m (i := 1) (j := 2) H1 eq_refl ltac:(simpl; lia) ltac:(simpl; lia))]. }
  split; [|exact (C82_does_return _ lib _ _ _ S)].
  intros q m' R. exact (C82_return _ lib h _ m _ (proj1 (C82_updates zops 0%Z (vec_at 0 2) (vec_at 2 3) (row_major 5 2 3) (row_major 5 2 3) (row_major 5 2 3) Upper)) S q m' R).
Qed.
