(** C90: the *_if_needed helpers.  For element types without conj and real the Hermitian and conjugated algorithms act as the
    symmetric and plain ones; for the others the functions of the type are used; magnitudes of unsigned elements are the
    elements. *)
From Coq Require Import List Arith ZArith Lia Bool.
From Verif Require Import Mem Scalar View Spec Idx Norm Kinds SpecKinds Blas1 Blas2 Blas3 PfKinds Inst.
Import ListNotations.
Local Open Scope sc_scope.

Theorem C90_helpers : forall (e : elem) (v : ops_of e),
  (ekind e = KCustomAdl -> conj v = adl_conj e v /\ re v = adl_real e v) /\
  (ekind e <> KCustomAdl -> conj v = v /\ re v = v).
Proof. exact helpers_ok. Qed.
Print Assumptions C90_helpers.
(** Used below: integers for which a lookup of conj and real finds nothing (what would be found, the negative and 0, is not
    used), arithmetic or of a user-defined type, and the same type with these functions. *)
Definition int_of (k : kind) : elem := Elem Z k 0%Z 1%Z Z.add Z.sub Z.mul Z.div Z.opp (fun _ => 0%Z). (* test data *)
Definition kn := ops_of (int_of KCustomNoAdl). (* test data *)
Definition kd_mem : mem kn := mem_of [1; 2; 3; 4;  5; 6;  7; 8;  9; 10; 11; 12;  13; 14;  0; 0; 0; 0]%Z. (* test data *)
Notation kv := (@velt kn). Notation km := (@melt kn).
Example C90_helpers_case : conj (3%Z : kn) = 3%Z /\ conj (3%Z : ops_of (int_of KCustomAdl)) = (-3)%Z.
Proof.
  split; [apply (proj2 (C90_helpers (int_of KCustomNoAdl) 3%Z)); discriminate|].
  apply (proj1 (C90_helpers (int_of KCustomAdl) 3%Z)); reflexivity.
Qed.
Ltac kc := first [discriminate | unfold kd_mem; concrete].

(** dotc is dot *)
Theorem C90_dotc : forall e, ekind e <> KCustomAdl -> forall fix_nc nc (x y : vec (ops_of e)) init,
  same_effect (dotc fix_nc nc x y init) (dot x y init).
Proof. exact dotc_kinds. Qed.
Print Assumptions C90_dotc.
Example C90_dotc_case : run (dotc false true (vec_at 4 2) (vec_at 6 2) (0%Z : kn)) kd_mem = Ok (83%Z : kn) kd_mem.
Proof. rewrite (C90_dotc (int_of KCustomNoAdl)) by discriminate. reflexivity. Qed.
(** With conj, dotc is the sum of the products of conj(x_i), that function of the type, and y_i. *)
Theorem C90_dotc_adl : forall e, ekind e = KCustomAdl -> (forall v, adl_conj e (adl_conj e v) = v) ->
  forall fix_nc (m : mem (ops_of e)) x y f g init, vext x = vext y -> vec_holds m x f -> vec_holds m y g ->
  succeeds (dotc fix_nc false x y init) m (fun r m' =>
    r = sum_from init 0 (vext x) (fun k => emul e (adl_conj e (f k)) (g k)) /\ m' = m).
Proof. exact dotc_adl. Qed.
Print Assumptions C90_dotc_adl.
Example C90_dotc_adl_case : succeeds (dotc false false (vec_at 4 2) (vec_at 6 2) (0%Z : ops_of (int_of KCustomAdl))) kd_mem (fun r m' =>
    r = (-83)%Z /\ m' = kd_mem).
Proof.
  apply (C90_dotc_adl (int_of KCustomAdl) eq_refl Z.opp_involutive false kd_mem (vec_at 4 2) (vec_at 6 2) (@velt kn [5; 6]%Z) (@velt kn [7; 8]%Z) 0%Z); kc.
Qed.
(** matrix_rank_1_update_c is matrix_rank_1_update *)
Theorem C90_gerc : forall e, ekind e <> KCustomAdl -> forall fix_nc nc (x y : vec (ops_of e)) A,
  same_effect (matrix_rank_1_update_c fix_nc nc x y A) (matrix_rank_1_update x y A).
Proof. exact gerc_kinds. Qed.
Print Assumptions C90_gerc.
Example C90_gerc_case : exists m', run (matrix_rank_1_update_c false true (vec_at 4 2) (vec_at 6 2) (@row_major kn 0 2 2)) kd_mem = Ok tt m' /\ m' 3 = Some 52%Z.
Proof. rewrite (C90_gerc (int_of KCustomNoAdl)) by discriminate. eexists. split; reflexivity. Qed.
(** The rotation with a complex s is the one with a real s. *)
Theorem C90_givens : forall e, ekind e <> KCustomAdl -> forall (x y : vec (ops_of e)) c s,
  same_effect (apply_givens_rotation_c x y c s) (apply_givens_rotation x y c s).
Proof. exact givens_kinds. Qed.
Print Assumptions C90_givens.
Example C90_givens_case : exists m', run (apply_givens_rotation_c (vec_at 4 2) (@vec_at kn 6 2) (2%Z : kn) (3%Z : kn)) kd_mem = Ok tt m' /\ m' 6 = Some (-1)%Z.
Proof. rewrite (C90_givens (int_of KCustomNoAdl)) by discriminate. eexists. split; reflexivity. Qed.

Theorem C90_hemv : forall e, ekind e <> KCustomAdl -> forall (m : mem (ops_of e)) A t x y a f,
  ext0 A = ext1 A -> vext x = ext1 A -> vext y = ext0 A ->
  mat_holds_on m A (in_tri t) a -> vec_holds m x f -> vwritable y -> allocated m (vcells y) ->
  disjoint (mcells_on A (in_tri t)) (vcells y) -> disjoint (vcells x) (vcells y) ->
  same_result (hermitian_matrix_vector_product A t x y) (symmetric_matrix_vector_product A t x y) m.
Proof. exact hemv_kinds. Qed.
Print Assumptions C90_hemv.
Example C90_hemv_case :
  same_result (hermitian_matrix_vector_product (@row_major kn 0 2 2) Lower (@vec_at kn 4 2) (@vec_at kn 6 2)) (symmetric_matrix_vector_product (@row_major kn 0 2 2) Lower (@vec_at kn 4 2) (@vec_at kn 6 2)) kd_mem.
Proof. apply (C90_hemv (int_of KCustomNoAdl)) with (a := (km [[1; 2]; [3; 4]]%Z)) (f := (kv [5; 6]%Z)); kc. Qed.

Theorem C90_hemv_upd : forall e, ekind e <> KCustomAdl -> forall (m : mem (ops_of e)) A t x y z a f g,
  ext0 A = ext1 A -> vext x = ext1 A -> vext y = ext0 A -> vext z = ext0 A ->
  mat_holds_on m A (in_tri t) a -> vec_holds m x f -> vec_holds m y g -> vwritable z -> allocated m (vcells z) ->
  disjoint (mcells_on A (in_tri t)) (vcells z) -> disjoint (vcells x) (vcells z) -> disjoint_or_aligned_v y z ->
  same_result (hermitian_matrix_vector_product_upd A t x y z) (symmetric_matrix_vector_product_upd A t x y z) m.
Proof. exact hemv_upd_kinds. Qed.
Print Assumptions C90_hemv_upd.
Example C90_hemv_upd_case :
  same_result (hermitian_matrix_vector_product_upd (@row_major kn 0 2 2) Lower (@vec_at kn 4 2) (@vec_at kn 6 2) (@vec_at kn 12 2)) (symmetric_matrix_vector_product_upd (@row_major kn 0 2 2) Lower (@vec_at kn 4 2) (@vec_at kn 6 2) (@vec_at kn 12 2)) kd_mem.
Proof. apply (C90_hemv_upd (int_of KCustomNoAdl)) with (a := (km [[1; 2]; [3; 4]]%Z)) (f := (kv [5; 6]%Z)) (g := (kv [7; 8]%Z)); kc. Qed.

Theorem C90_hemm_left : forall e, ekind e <> KCustomAdl -> forall (m : mem (ops_of e)) A t B C a b,
  ext0 A = ext1 A -> ext0 C = ext0 A -> ext1 A = ext0 B -> ext1 C = ext1 B ->
  mat_holds_on m A (in_tri t) a -> mat_holds m B b -> mwritable C -> allocated m (mcells C) ->
  disjoint (mcells_on A (in_tri t)) (mcells C) -> disjoint (mcells B) (mcells C) ->
  same_result (hermitian_matrix_product_left A t B C) (symmetric_matrix_product_left A t B C) m.
Proof. exact hemm_left_kinds. Qed.
Print Assumptions C90_hemm_left.
Example C90_hemm_left_case :
  same_result (hermitian_matrix_product_left (@row_major kn 0 2 2) Lower (@row_major kn 8 2 2) (@row_major kn 14 2 2)) (symmetric_matrix_product_left (@row_major kn 0 2 2) Lower (@row_major kn 8 2 2) (@row_major kn 14 2 2)) kd_mem.
Proof. apply (C90_hemm_left (int_of KCustomNoAdl)) with (a := (km [[1; 2]; [3; 4]]%Z)) (b := (km [[9; 10]; [11; 12]]%Z)); kc. Qed.

Theorem C90_hemm_right : forall e, ekind e <> KCustomAdl -> forall (m : mem (ops_of e)) B A t C a b,
  ext0 A = ext1 A -> ext0 C = ext0 B -> ext1 B = ext0 A -> ext1 C = ext1 A ->
  mat_holds_on m A (in_tri t) a -> mat_holds m B b -> mwritable C -> allocated m (mcells C) ->
  disjoint (mcells_on A (in_tri t)) (mcells C) -> disjoint (mcells B) (mcells C) ->
  same_result (hermitian_matrix_product_right B A t C) (symmetric_matrix_product_right B A t C) m.
Proof. exact hemm_right_kinds. Qed.
Print Assumptions C90_hemm_right.
Example C90_hemm_right_case :
  same_result (hermitian_matrix_product_right (@row_major kn 8 2 2) (@row_major kn 0 2 2) Lower (@row_major kn 14 2 2)) (symmetric_matrix_product_right (@row_major kn 8 2 2) (@row_major kn 0 2 2) Lower (@row_major kn 14 2 2)) kd_mem.
Proof. apply (C90_hemm_right (int_of KCustomNoAdl)) with (a := (km [[1; 2]; [3; 4]]%Z)) (b := (km [[9; 10]; [11; 12]]%Z)); kc. Qed.

Theorem C90_her : forall e, ekind e <> KCustomAdl -> forall (m : mem (ops_of e)) x A t a f,
  ext0 A = ext1 A -> vext x = ext0 A ->
  mat_holds_on m A (in_tri t) a -> vec_holds m x f -> mwritable_on A (in_tri t) ->
  disjoint (vcells x) (mcells_on A (in_tri t)) ->
  same_result (hermitian_matrix_rank_1_update x A t) (symmetric_matrix_rank_1_update x A t) m.
Proof. exact her_kinds. Qed.
Print Assumptions C90_her.
Example C90_her_case :
  same_result (hermitian_matrix_rank_1_update (@vec_at kn 4 2) (@row_major kn 0 2 2) Lower) (symmetric_matrix_rank_1_update (@vec_at kn 4 2) (@row_major kn 0 2 2) Lower) kd_mem.
Proof. apply (C90_her (int_of KCustomNoAdl)) with (a := (km [[1; 2]; [3; 4]]%Z)) (f := (kv [5; 6]%Z)); kc. Qed.

Theorem C90_her_alpha : forall e, ekind e <> KCustomAdl -> forall (m : mem (ops_of e)) alpha x A t a f,
  ext0 A = ext1 A -> vext x = ext0 A ->
  mat_holds_on m A (in_tri t) a -> vec_holds m x f -> mwritable_on A (in_tri t) ->
  disjoint (vcells x) (mcells_on A (in_tri t)) ->
  same_result (hermitian_matrix_rank_1_update_alpha alpha x A t) (symmetric_matrix_rank_1_update_alpha alpha x A t) m.
Proof. exact her_alpha_kinds. Qed.
Print Assumptions C90_her_alpha.
Example C90_her_alpha_case :
  same_result (hermitian_matrix_rank_1_update_alpha (2%Z : kn) (@vec_at kn 4 2) (@row_major kn 0 2 2) Lower) (symmetric_matrix_rank_1_update_alpha (2%Z : kn) (@vec_at kn 4 2) (@row_major kn 0 2 2) Lower) kd_mem.
Proof. apply (C90_her_alpha (int_of KCustomNoAdl)) with (a := (km [[1; 2]; [3; 4]]%Z)) (f := (kv [5; 6]%Z)); kc. Qed.

Theorem C90_her2 : forall e, ekind e <> KCustomAdl -> forall (m : mem (ops_of e)) x y A t a f g,
  ext0 A = ext1 A -> vext x = ext0 A -> vext y = ext0 A ->
  mat_holds_on m A (in_tri t) a -> vec_holds m x f -> vec_holds m y g -> mwritable_on A (in_tri t) ->
  disjoint (vcells x) (mcells_on A (in_tri t)) -> disjoint (vcells y) (mcells_on A (in_tri t)) ->
  same_result (hermitian_matrix_rank_2_update x y A t) (symmetric_matrix_rank_2_update x y A t) m.
Proof. exact her2_kinds. Qed.
Print Assumptions C90_her2.
Example C90_her2_case :
  same_result (hermitian_matrix_rank_2_update (@vec_at kn 4 2) (@vec_at kn 6 2) (@row_major kn 0 2 2) Lower) (symmetric_matrix_rank_2_update (@vec_at kn 4 2) (@vec_at kn 6 2) (@row_major kn 0 2 2) Lower) kd_mem.
Proof. apply (C90_her2 (int_of KCustomNoAdl)) with (a := (km [[1; 2]; [3; 4]]%Z)) (f := (kv [5; 6]%Z)) (g := (kv [7; 8]%Z)); kc. Qed.

Theorem C90_herk : forall e, ekind e <> KCustomAdl -> forall (m : mem (ops_of e)) A C t a c,
  ext0 C = ext1 C -> ext0 A = ext0 C ->
  mat_holds m A a -> mat_holds_on m C (in_tri t) c -> mwritable_on C (in_tri t) ->
  disjoint (mcells A) (mcells_on C (in_tri t)) ->
  same_result (hermitian_matrix_rank_k_update A C t) (symmetric_matrix_rank_k_update A C t) m.
Proof. exact herk_kinds. Qed.
Print Assumptions C90_herk.
Example C90_herk_case :
  same_result (hermitian_matrix_rank_k_update (@row_major kn 0 2 2) (@row_major kn 14 2 2) Lower) (symmetric_matrix_rank_k_update (@row_major kn 0 2 2) (@row_major kn 14 2 2) Lower) kd_mem.
Proof. apply (C90_herk (int_of KCustomNoAdl)) with (a := (km [[1; 2]; [3; 4]]%Z)) (c := (km [[0; 0]; [0; 0]]%Z)); kc. Qed.

Theorem C90_herk_alpha : forall e, ekind e <> KCustomAdl -> forall (m : mem (ops_of e)) alpha A C t a c,
  ext0 C = ext1 C -> ext0 A = ext0 C ->
  mat_holds m A a -> mat_holds_on m C (in_tri t) c -> mwritable_on C (in_tri t) ->
  disjoint (mcells A) (mcells_on C (in_tri t)) ->
  same_result (hermitian_matrix_rank_k_update_alpha alpha A C t) (symmetric_matrix_rank_k_update_alpha alpha A C t) m.
Proof. exact herk_alpha_kinds. Qed.
Print Assumptions C90_herk_alpha.
Example C90_herk_alpha_case :
  same_result (hermitian_matrix_rank_k_update_alpha (2%Z : kn) (@row_major kn 0 2 2) (@row_major kn 14 2 2) Lower) (symmetric_matrix_rank_k_update_alpha (2%Z : kn) (@row_major kn 0 2 2) (@row_major kn 14 2 2) Lower) kd_mem.
Proof. apply (C90_herk_alpha (int_of KCustomNoAdl)) with (a := (km [[1; 2]; [3; 4]]%Z)) (c := (km [[0; 0]; [0; 0]]%Z)); kc. Qed.

Theorem C90_her2k : forall e, ekind e <> KCustomAdl -> forall (m : mem (ops_of e)) A B C t a b c,
  ext0 C = ext1 C -> ext0 A = ext0 C -> ext0 B = ext0 C -> ext1 B = ext1 A ->
  mat_holds m A a -> mat_holds m B b -> mat_holds_on m C (in_tri t) c -> mwritable_on C (in_tri t) ->
  disjoint (mcells A) (mcells_on C (in_tri t)) -> disjoint (mcells B) (mcells_on C (in_tri t)) ->
  same_result (hermitian_matrix_rank_2k_update A B C t) (symmetric_matrix_rank_2k_update A B C t) m.
Proof. exact her2k_kinds. Qed.
Print Assumptions C90_her2k.
Example C90_her2k_case :
  same_result (hermitian_matrix_rank_2k_update (@row_major kn 0 2 2) (@row_major kn 8 2 2) (@row_major kn 14 2 2) Lower) (symmetric_matrix_rank_2k_update (@row_major kn 0 2 2) (@row_major kn 8 2 2) (@row_major kn 14 2 2) Lower) kd_mem.
Proof. apply (C90_her2k (int_of KCustomNoAdl)) with (a := (km [[1; 2]; [3; 4]]%Z)) (b := (km [[9; 10]; [11; 12]]%Z)) (c := (km [[0; 0]; [0; 0]]%Z)); kc. Qed.

(** Sums of magnitudes: unsigned elements are added as they are, other arithmetic ones through std::abs, elements of types with
    real and imag through the magnitudes of both parts; for a type without abs the call does not compile. *)
Theorem C90_abs_sum : forall (e : elem) (F : rops) (adl_imag : etype e -> etype e) (to std_abs adl_abs : etype e -> F)
  (m : mem (ops_of e)) v f (init : F), vec_holds m v f ->
  match mags_of e F adl_imag to std_abs adl_abs with
  | None => ekind e = KCustomNoAdl
  | Some M =>
      ekind e <> KCustomNoAdl /\
      succeeds (vector_abs_sum M v init) m (fun r m' => m' = m /\
        r = match ekind e with
            | KUnsigned => fold_left (fun s i => radd s (to (f i))) (seq 0 (vext v)) init
            | KArith => fold_left (fun s i => radd s (std_abs (f i))) (seq 0 (vext v)) init
            | _ => fold_left (fun s i => radd (radd s (rabs (to (adl_real e (f i))))) (rabs (to (adl_imag (f i))))) (seq 0 (vext v)) init
            end)
  end.
Proof. exact abs_sum_kinds. Qed.
Print Assumptions C90_abs_sum.
Definition zr : rops := Rops 0%Z 1%Z Z.add Z.sub Z.mul Z.div Z.sqrt Z.abs Z.ltb Z.eqb. (* test data *)
Example C90_abs_sum_case : forall M, mags_of (int_of KUnsigned) zr (fun v => v) (fun v => v) Z.abs Z.abs = Some M ->
  succeeds (vector_abs_sum M (vec_at 4 2) (1%Z : zr)) kd_mem (fun r m' => m' = kd_mem /\ r = 12%Z).
Proof.
  intros M E. pose proof (C90_abs_sum (int_of KUnsigned) zr (fun v => v) (fun v => v) Z.abs Z.abs kd_mem (vec_at 4 2) (kv [5; 6]%Z) 1%Z ltac:(kc)) as H.
  rewrite E in H. exact (proj2 H).
Qed.
