(* Statement of the dispatch property (C44), independent of the tables of
   Dispatch.v: it only mentions the environment and the call. *)
From Coq Require Import List String Bool Arith.
From Verif Require Import Dispatch.
Import ListNotations.
Local Open Scope string_scope.

(* The outcome the property asks for: the custom implementation of the called
   algorithm, with the arguments of the call and the mapped policy, when there is
   one and the mapped policy is not the inline policy; otherwise the inline
   overload of the called algorithm with the arguments of the call. *)
Definition as_documented (e : env) (p : policy) (name : string) (args : list arg)
    (out : outcome) : Prop :=
  (mapper e p <> PInline /\ custom e (mapper e p) name args = true /\
   out = RunsCustom (mapper e p) name args) \/
  ((mapper e p = PInline \/ custom e (mapper e p) name args = false) /\
   out = RunsInline name args).

(* An algorithm with this name and these kinds of arguments exists. *)
Definition algorithm (name : string) (args : list arg) : Prop :=
  exists ks, In (name, ks) inline_overloads /\ map fst args = ks.

(* No argument has the library's namespace among its associated ones. *)
Definition no_linalg_argument (e : env) (args : list arg) : Prop :=
  forall a, In a args ->
    fst a <> KTri /\ fst a <> KDiag /\ fst a <> KSide /\ assoc e a = false.

(* Mapping the policy once or twice gives the inline policy, or the library's
   overloads are not found through the arguments. *)
Definition settled (e : env) (p : policy) (args : list arg) : Prop :=
  mapper e p = PInline \/ mapper e (mapper e p) = PInline \/ no_linalg_argument e args.

(* The rule of linalg_execpolicy_mapper.hpp:70 for a mapper. *)
Definition maps_away (e : env) (p : policy) : Prop := p = PInline \/ mapper e p <> p.

(* Algorithms whose policy overload only accepts standard policies. *)
Definition standard_policies_only (name : string) : Prop :=
  In name ["symmetric_matrix_rank_1_update"; "hermitian_matrix_rank_1_update";
           "symmetric_matrix_rank_k_update"; "hermitian_matrix_rank_k_update"].
Definition accepted (c : category) (p : policy) (name : string) : Prop :=
  standard_policies_only name -> c = Rvalue /\ (p = PDefault \/ exists n, p = PStd n).

(* Algorithms treated by separate theorems below. *)
Definition one_name (name : string) (args : list arg) : Prop :=
  ~ In name ["triangular_matrix_product"; "symmetric_matrix_product";
             "hermitian_matrix_product"; "triangular_matrix_matrix_solve"] /\
  (name = "matrix_product" -> List.length args <> 3) /\
  (name = "triangular_matrix_vector_solve" -> List.length args <> 6).

(* No custom implementation at all. *)
Definition no_custom (e : env) : Prop := forall q name args, custom e q name args = false.

(* The products whose policy overload asks about one name and calls another. *)
Inductive redirected : string -> list arg -> string -> list arg -> Prop :=
| red_tri_left A t d B C :
    redirected "triangular_matrix_product"
      [(KMat, A); (KTri, t); (KDiag, d); (KMat, B); (KMat, C)]
      "triangular_matrix_left_product"
      [(KMat, A); (KTri, t); (KDiag, d); (KMat, B); (KMat, C)]
| red_tri_right A t d B C :
    redirected "triangular_matrix_product"
      [(KMat, B); (KMat, A); (KTri, t); (KDiag, d); (KMat, C)]
      "triangular_matrix_right_product"
      [(KMat, A); (KTri, t); (KDiag, d); (KMat, B); (KMat, C)]
| red_sym_left A t B C :
    redirected "symmetric_matrix_product" [(KMat, A); (KTri, t); (KMat, B); (KMat, C)]
      "symmetric_matrix_left_product" [(KMat, A); (KTri, t); (KMat, B); (KMat, C)]
| red_sym_right A t B C :
    redirected "symmetric_matrix_product" [(KMat, B); (KMat, A); (KTri, t); (KMat, C)]
      "symmetric_matrix_right_product" [(KMat, A); (KTri, t); (KMat, B); (KMat, C)]
| red_sym_left_upd A t B E C :
    redirected "symmetric_matrix_product"
      [(KMat, A); (KTri, t); (KMat, B); (KMat, E); (KMat, C)]
      "symmetric_matrix_left_product"
      [(KMat, A); (KTri, t); (KMat, B); (KMat, E); (KMat, C)]
| red_sym_right_upd A t B E C :
    redirected "symmetric_matrix_product"
      [(KMat, B); (KMat, A); (KTri, t); (KMat, E); (KMat, C)]
      "symmetric_matrix_right_product"
      [(KMat, A); (KTri, t); (KMat, B); (KMat, E); (KMat, C)]
| red_herm_left A t B C :
    redirected "hermitian_matrix_product" [(KMat, A); (KTri, t); (KMat, B); (KMat, C)]
      "hermitian_matrix_left_product" [(KMat, A); (KTri, t); (KMat, B); (KMat, C)]
| red_herm_right A t B C :
    redirected "hermitian_matrix_product" [(KMat, B); (KMat, A); (KTri, t); (KMat, C)]
      "hermitian_matrix_right_product" [(KMat, A); (KTri, t); (KMat, B); (KMat, C)]
| red_herm_left_upd A t B E C :
    redirected "hermitian_matrix_product"
      [(KMat, A); (KTri, t); (KMat, B); (KMat, E); (KMat, C)]
      "hermitian_matrix_left_product"
      [(KMat, A); (KTri, t); (KMat, B); (KMat, E); (KMat, C)]
| red_herm_right_upd A t B E C :
    redirected "hermitian_matrix_product"
      [(KMat, B); (KMat, A); (KTri, t); (KMat, E); (KMat, C)]
      "hermitian_matrix_right_product"
      [(KMat, A); (KTri, t); (KMat, B); (KMat, E); (KMat, C)].

(* The loops of the library that compute an algorithm: its own, those of the sum of
   squares of the same vector for the 2-norm, and those of the solve with a division
   for the vector solve without one. *)
Inductive library_loops : string -> list arg -> outcome -> Prop :=
| loops_norm x init s :
    library_loops "vector_two_norm" [x; init] (RunsInline "vector_sum_of_squares" [x; (KScal, s)])
| loops_solve A t d b x s :
    library_loops "triangular_matrix_vector_solve" [A; t; d; b; x]
      (RunsInline "triangular_matrix_vector_solve" [A; t; d; b; x; (KScal, s)])
| loops_own name args :
    name <> "vector_two_norm" ->
    (name = "triangular_matrix_vector_solve" -> List.length args <> 5) ->
    library_loops name args (RunsInline name args).
