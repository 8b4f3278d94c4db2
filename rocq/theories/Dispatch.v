(* Choice of the implementation behind an overload that takes an execution
   policy, and behind the overload that takes none.

   Modelled: include/experimental/__p1673_bits/linalg_execpolicy_mapper.hpp and,
   for every algorithm, the availability trait, the policy overload, the list of
   inline overloads and the overload without a policy.

   C++ overload resolution is modelled to the following extent.
   - A custom implementation is preferred to the library's own policy overload
     when both are viable (the policy parameter of the former is a concrete type,
     that of the latter is [ExecutionPolicy&&]).
   - An unqualified call inside an availability trait finds a custom
     implementation, and finds the library's own policy overloads only by
     argument dependent lookup, because the traits precede those overloads in
     every header (blas3_matrix_product.hpp:2100-2129 is the exception).
   - A triangle, diagonal or side tag always brings the library's namespace in
     (layout_tags.hpp declares the tags there); whether another argument does
     depends on its type, and is a field of the environment.
   Argument types are represented by argument names: two arguments with the same
   kind and the same name have the same type. *)
From Coq Require Import List String Bool Arith.
Import ListNotations.
Local Open Scope string_scope.

(* linalg_execpolicy_mapper.hpp:14 inline_exec_t, :18 default_exec_t; [PStd] are
   the policies with std::is_execution_policy_v, [PUser] any other class. *)
Inductive policy := PInline | PDefault | PStd (n : nat) | PUser (n : nat).

(* std::is_same_v on policy types, linalg_execpolicy_mapper.hpp:92-93 *)
Definition policy_eqb (p q : policy) : bool :=
  match p, q with
  | PInline, PInline => true
  | PDefault, PDefault => true
  | PStd m, PStd n => Nat.eqb m n
  | PUser m, PUser n => Nat.eqb m n
  | _, _ => false
  end.

(* linalg_execpolicy_mapper.hpp:21-23, is_inline_exec_v *)
Definition is_inline (p : policy) : bool :=
  match p with PInline => true | _ => false end.

(* Whether the policy expression is an lvalue: for a forwarding reference
   [ExecutionPolicy&&] an lvalue makes [ExecutionPolicy] a reference type. *)
Inductive category := Rvalue | Lvalue.

(* linalg_execpolicy_mapper.hpp:29-50, is_linalg_execution_policy_other_than_inline_v
   applied to the deduced [ExecutionPolicy]; none of the class traits in it holds
   for a reference type. *)
Definition linalg_policy (c : category) (p : policy) : bool :=
  match c with
  | Lvalue => false
  | Rvalue =>
      negb (is_inline p) &&
      match p with PStd _ | PDefault => true | _ => false end
  end.

(* Kinds of parameters that take part in overload resolution: rank-2 mdspan,
   rank-1 mdspan, mdspan of any rank, scalar, complex scalar, and the three kinds
   of tags of include/experimental/__p1673_bits/layout_tags.hpp. *)
Inductive kind := KMat | KVec | KObj | KScal | KCplx | KTri | KDiag | KSide.

(* Equality of kinds; the overloads on lines cited in [sites] differ by it. *)
Definition kind_eqb (a b : kind) : bool :=
  match a, b with
  | KMat, KMat | KVec, KVec | KObj, KObj | KScal, KScal
  | KCplx, KCplx | KTri, KTri | KDiag, KDiag | KSide, KSide => true
  | _, _ => false
  end.

(* An argument, or a parameter, of a call: its kind and a name for its type. *)
Definition arg : Type := kind * string.

(* What a policy overload asks of the mapped policy: the usual trait, the trait of
   blas3_matrix_product.hpp:2100-2129, or nothing at all. *)
Inductive test :=
| TCustom (name : string) (args : list string)
| TDistinct (name : string) (args : list string)
| TNever.

(* One policy overload: its signature, whether it is constrained by
   is_linalg_execution_policy_other_than_inline_v, whether it maps the policy with
   map_execpolicy_with_check (true) or with execpolicy_mapper (false), the test it
   makes, the call it makes when the test holds and the call it makes otherwise. *)
Record site := {
  s_name : string;
  s_params : list arg;
  s_constrained : bool;
  s_checked : bool;
  s_test : test;
  s_custom : string * list string;
  s_inline : string * list string
}.

(* One overload without a policy parameter, e.g. blas1_linalg_copy.hpp:186-204. *)
Record plain_overload := {
  n_name : string;
  n_params : list arg;
  n_call : string * list string
}.

(* The policy overloads.  One entry per [use_custom] site; every field is
   transcribed from the lines cited in the entry. *)
Definition sites : list site := [
  (* include/experimental/__p1673_bits/blas1_dot.hpp:109-141, trait at lines 60-76 *)
  {| s_name := "dot";
     s_params := [(KVec, "v1"); (KVec, "v2"); (KScal, "init")];
     s_constrained := false; s_checked := true;
     s_test := TCustom "dot" ["v1"; "v2"; "init"];
     s_custom := ("dot", ["v1"; "v2"; "init"]);
     s_inline := ("dot", ["v1"; "v2"; "init"]) |};
  (* include/experimental/__p1673_bits/blas1_givens.hpp:408-441, trait at lines 93-109 *)
  {| s_name := "apply_givens_rotation";
     s_params := [(KVec, "x"); (KVec, "y"); (KScal, "c"); (KScal, "s")];
     s_constrained := false; s_checked := true;
     s_test := TCustom "apply_givens_rotation" ["x"; "y"; "c"; "s"];
     s_custom := ("apply_givens_rotation", ["x"; "y"; "c"; "s"]);
     s_inline := ("apply_givens_rotation", ["x"; "y"; "c"; "s"]) |};
  (* include/experimental/__p1673_bits/blas1_givens.hpp:504-536, trait at lines 93-109 *)
  {| s_name := "apply_givens_rotation";
     s_params := [(KVec, "x"); (KVec, "y"); (KScal, "c"); (KCplx, "s")];
     s_constrained := false; s_checked := true;
     s_test := TCustom "apply_givens_rotation" ["x"; "y"; "c"; "s"];
     s_custom := ("apply_givens_rotation", ["x"; "y"; "c"; "s"]);
     s_inline := ("apply_givens_rotation", ["x"; "y"; "c"; "s"]) |};
  (* include/experimental/__p1673_bits/blas1_linalg_add.hpp:200-237, trait at lines 144-159 *)
  {| s_name := "add";
     s_params := [(KObj, "x"); (KObj, "y"); (KObj, "z")];
     s_constrained := false; s_checked := true;
     s_test := TCustom "add" ["x"; "y"; "z"];
     s_custom := ("add", ["x"; "y"; "z"]);
     s_inline := ("add", ["x"; "y"; "z"]) |};
  (* include/experimental/__p1673_bits/blas1_linalg_copy.hpp:155-184, trait at lines 110-124 *)
  {| s_name := "copy";
     s_params := [(KObj, "x"); (KObj, "y")];
     s_constrained := false; s_checked := true;
     s_test := TCustom "copy" ["x"; "y"];
     s_custom := ("copy", ["x"; "y"]);
     s_inline := ("copy", ["x"; "y"]) |};
  (* include/experimental/__p1673_bits/blas1_linalg_swap.hpp:162-191, trait at lines 118-130 *)
  {| s_name := "swap_elements";
     s_params := [(KObj, "x"); (KObj, "y")];
     s_constrained := false; s_checked := true;
     s_test := TCustom "swap_elements" ["x"; "y"];
     s_custom := ("swap_elements", ["x"; "y"]);
     s_inline := ("swap_elements", ["x"; "y"]) |};
  (* include/experimental/__p1673_bits/blas1_matrix_frob_norm.hpp:128-151, trait at lines 61-76 *)
  {| s_name := "matrix_frob_norm";
     s_params := [(KMat, "A"); (KScal, "init")];
     s_constrained := false; s_checked := true;
     s_test := TCustom "matrix_frob_norm" ["A"; "init"];
     s_custom := ("matrix_frob_norm", ["A"; "init"]);
     s_inline := ("matrix_frob_norm", ["A"; "init"]) |};
  (* include/experimental/__p1673_bits/blas1_matrix_inf_norm.hpp:117-141, trait at lines 61-76 *)
  {| s_name := "matrix_inf_norm";
     s_params := [(KMat, "A"); (KScal, "init")];
     s_constrained := false; s_checked := true;
     s_test := TCustom "matrix_inf_norm" ["A"; "init"];
     s_custom := ("matrix_inf_norm", ["A"; "init"]);
     s_inline := ("matrix_inf_norm", ["A"; "init"]) |};
  (* include/experimental/__p1673_bits/blas1_matrix_one_norm.hpp:120-145, trait at lines 61-76 *)
  {| s_name := "matrix_one_norm";
     s_params := [(KMat, "A"); (KScal, "init")];
     s_constrained := false; s_checked := true;
     s_test := TCustom "matrix_one_norm" ["A"; "init"];
     s_custom := ("matrix_one_norm", ["A"; "init"]);
     s_inline := ("matrix_one_norm", ["A"; "init"]) |};
  (* include/experimental/__p1673_bits/blas1_scale.hpp:126-149, trait at lines 90-101 *)
  {| s_name := "scale";
     s_params := [(KScal, "alpha"); (KObj, "x")];
     s_constrained := false; s_checked := true;
     s_test := TCustom "scale" ["alpha"; "x"];
     s_custom := ("scale", ["alpha"; "x"]);
     s_inline := ("scale", ["alpha"; "x"]) |};
  (* include/experimental/__p1673_bits/blas1_vector_abs_sum.hpp:110-131, trait at lines 60-73 *)
  {| s_name := "vector_abs_sum";
     s_params := [(KVec, "v"); (KScal, "init")];
     s_constrained := false; s_checked := true;
     s_test := TCustom "vector_abs_sum" ["v"; "init"];
     s_custom := ("vector_abs_sum", ["v"; "init"]);
     s_inline := ("vector_abs_sum", ["v"; "init"]) |};
  (* include/experimental/__p1673_bits/blas1_vector_idx_abs_max.hpp:132-155, trait at lines 58-69 *)
  {| s_name := "vector_idx_abs_max";
     s_params := [(KVec, "v")];
     s_constrained := false; s_checked := true;
     s_test := TCustom "vector_idx_abs_max" ["v"];
     s_custom := ("vector_idx_abs_max", ["v"]);
     s_inline := ("vector_idx_abs_max", ["v"]) |};
  (* include/experimental/__p1673_bits/blas1_vector_norm2.hpp:102-123, trait at lines 61-75 *)
  {| s_name := "vector_two_norm";
     s_params := [(KVec, "x"); (KScal, "init")];
     s_constrained := false; s_checked := true;
     s_test := TCustom "vector_two_norm" ["x"; "init"];
     s_custom := ("vector_two_norm", ["x"; "init"]);
     s_inline := ("vector_two_norm", ["x"; "init"]) |};
  (* include/experimental/__p1673_bits/blas1_vector_sum_of_squares.hpp:128-150, trait at lines 67-81 *)
  {| s_name := "vector_sum_of_squares";
     s_params := [(KVec, "v"); (KScal, "init")];
     s_constrained := false; s_checked := true;
     s_test := TCustom "vector_sum_of_squares" ["v"; "init"];
     s_custom := ("vector_sum_of_squares", ["v"; "init"]);
     s_inline := ("vector_sum_of_squares", ["v"; "init"]) |};
  (* include/experimental/__p1673_bits/blas2_matrix_rank_1_update.hpp:192-222, trait at lines 57-72 *)
  {| s_name := "matrix_rank_1_update";
     s_params := [(KVec, "x"); (KVec, "y"); (KMat, "A")];
     s_constrained := false; s_checked := true;
     s_test := TCustom "matrix_rank_1_update" ["x"; "y"; "A"];
     s_custom := ("matrix_rank_1_update", ["x"; "y"; "A"]);
     s_inline := ("matrix_rank_1_update", ["x"; "y"; "A"]) |};
  (* include/experimental/__p1673_bits/blas2_matrix_rank_1_update.hpp:338-374, trait at lines 98-115 *)
  {| s_name := "symmetric_matrix_rank_1_update";
     s_params := [(KScal, "alpha"); (KVec, "x"); (KMat, "A"); (KTri, "t")];
     s_constrained := true; s_checked := false;
     s_test := TCustom "symmetric_matrix_rank_1_update" ["alpha"; "x"; "A"; "t"];
     s_custom := ("symmetric_matrix_rank_1_update", ["alpha"; "x"; "A"; "t"]);
     s_inline := ("symmetric_matrix_rank_1_update", ["alpha"; "x"; "A"; "t"]) |};
  (* include/experimental/__p1673_bits/blas2_matrix_rank_1_update.hpp:445-479, trait at lines 79-95 *)
  {| s_name := "symmetric_matrix_rank_1_update";
     s_params := [(KVec, "x"); (KMat, "A"); (KTri, "t")];
     s_constrained := true; s_checked := true;
     s_test := TCustom "symmetric_matrix_rank_1_update" ["x"; "A"; "t"];
     s_custom := ("symmetric_matrix_rank_1_update", ["x"; "A"; "t"]);
     s_inline := ("symmetric_matrix_rank_1_update", ["x"; "A"; "t"]) |};
  (* include/experimental/__p1673_bits/blas2_matrix_rank_1_update.hpp:553-589, trait at lines 141-158 *)
  {| s_name := "hermitian_matrix_rank_1_update";
     s_params := [(KScal, "alpha"); (KVec, "x"); (KMat, "A"); (KTri, "t")];
     s_constrained := true; s_checked := false;
     s_test := TCustom "hermitian_matrix_rank_1_update" ["alpha"; "x"; "A"; "t"];
     s_custom := ("hermitian_matrix_rank_1_update", ["alpha"; "x"; "A"; "t"]);
     s_inline := ("hermitian_matrix_rank_1_update", ["alpha"; "x"; "A"; "t"]) |};
  (* include/experimental/__p1673_bits/blas2_matrix_rank_1_update.hpp:662-696, trait at lines 122-138 *)
  {| s_name := "hermitian_matrix_rank_1_update";
     s_params := [(KVec, "x"); (KMat, "A"); (KTri, "t")];
     s_constrained := true; s_checked := true;
     s_test := TCustom "hermitian_matrix_rank_1_update" ["x"; "A"; "t"];
     s_custom := ("hermitian_matrix_rank_1_update", ["x"; "A"; "t"]);
     s_inline := ("hermitian_matrix_rank_1_update", ["x"; "A"; "t"]) |};
  (* include/experimental/__p1673_bits/blas2_matrix_rank_2_update.hpp:134-165, trait at lines 57-73 *)
  {| s_name := "symmetric_matrix_rank_2_update";
     s_params := [(KVec, "x"); (KVec, "y"); (KMat, "A"); (KTri, "t")];
     s_constrained := false; s_checked := true;
     s_test := TCustom "symmetric_matrix_rank_2_update" ["x"; "y"; "A"; "t"];
     s_custom := ("symmetric_matrix_rank_2_update", ["x"; "y"; "A"; "t"]);
     s_inline := ("symmetric_matrix_rank_2_update", ["x"; "y"; "A"; "t"]) |};
  (* include/experimental/__p1673_bits/blas2_matrix_rank_2_update.hpp:227-258, trait at lines 79-95 *)
  {| s_name := "hermitian_matrix_rank_2_update";
     s_params := [(KVec, "x"); (KVec, "y"); (KMat, "A"); (KTri, "t")];
     s_constrained := false; s_checked := true;
     s_test := TCustom "hermitian_matrix_rank_2_update" ["x"; "y"; "A"; "t"];
     s_custom := ("hermitian_matrix_rank_2_update", ["x"; "y"; "A"; "t"]);
     s_inline := ("hermitian_matrix_rank_2_update", ["x"; "y"; "A"; "t"]) |};
  (* include/experimental/__p1673_bits/blas2_matrix_vector_product.hpp:325-341, trait at lines 61-75 *)
  {| s_name := "matrix_vector_product";
     s_params := [(KMat, "A"); (KVec, "x"); (KVec, "y")];
     s_constrained := false; s_checked := true;
     s_test := TCustom "matrix_vector_product" ["A"; "x"; "y"];
     s_custom := ("matrix_vector_product", ["A"; "x"; "y"]);
     s_inline := ("matrix_vector_product", ["A"; "x"; "y"]) |};
  (* include/experimental/__p1673_bits/blas2_matrix_vector_product.hpp:450-469, trait at lines 82-95 *)
  {| s_name := "matrix_vector_product";
     s_params := [(KMat, "A"); (KVec, "x"); (KVec, "y"); (KVec, "z")];
     s_constrained := false; s_checked := true;
     s_test := TCustom "matrix_vector_product" ["A"; "x"; "y"; "z"];
     s_custom := ("matrix_vector_product", ["A"; "x"; "y"; "z"]);
     s_inline := ("matrix_vector_product", ["A"; "x"; "y"; "z"]) |};
  (* include/experimental/__p1673_bits/blas2_matrix_vector_product.hpp:560-590, trait at lines 102-115 *)
  {| s_name := "symmetric_matrix_vector_product";
     s_params := [(KMat, "A"); (KTri, "t"); (KVec, "x"); (KVec, "y")];
     s_constrained := false; s_checked := true;
     s_test := TCustom "symmetric_matrix_vector_product" ["A"; "t"; "x"; "y"];
     s_custom := ("symmetric_matrix_vector_product", ["A"; "t"; "x"; "y"]);
     s_inline := ("symmetric_matrix_vector_product", ["A"; "t"; "x"; "y"]) |};
  (* include/experimental/__p1673_bits/blas2_matrix_vector_product.hpp:683-718, trait at lines 122-136 *)
  {| s_name := "symmetric_matrix_vector_product";
     s_params := [(KMat, "A"); (KTri, "t"); (KVec, "x"); (KVec, "y"); (KVec, "z")];
     s_constrained := false; s_checked := true;
     s_test := TCustom "symmetric_matrix_vector_product" ["A"; "t"; "x"; "y"; "z"];
     s_custom := ("symmetric_matrix_vector_product", ["A"; "t"; "x"; "y"; "z"]);
     s_inline := ("symmetric_matrix_vector_product", ["A"; "t"; "x"; "y"; "z"]) |};
  (* include/experimental/__p1673_bits/blas2_matrix_vector_product.hpp:829-846, trait at lines 143-156 *)
  {| s_name := "hermitian_matrix_vector_product";
     s_params := [(KMat, "A"); (KTri, "t"); (KVec, "x"); (KVec, "y")];
     s_constrained := false; s_checked := true;
     s_test := TCustom "hermitian_matrix_vector_product" ["A"; "t"; "x"; "y"];
     s_custom := ("hermitian_matrix_vector_product", ["A"; "t"; "x"; "y"]);
     s_inline := ("hermitian_matrix_vector_product", ["A"; "t"; "x"; "y"]) |};
  (* include/experimental/__p1673_bits/blas2_matrix_vector_product.hpp:943-978, trait at lines 163-177 *)
  {| s_name := "hermitian_matrix_vector_product";
     s_params := [(KMat, "A"); (KTri, "t"); (KVec, "x"); (KVec, "y"); (KVec, "z")];
     s_constrained := false; s_checked := true;
     s_test := TCustom "hermitian_matrix_vector_product" ["A"; "t"; "x"; "y"; "z"];
     s_custom := ("hermitian_matrix_vector_product", ["A"; "t"; "x"; "y"; "z"]);
     s_inline := ("hermitian_matrix_vector_product", ["A"; "t"; "x"; "y"; "z"]) |};
  (* include/experimental/__p1673_bits/blas2_matrix_vector_product.hpp:1079-1116, trait at lines 184-201 *)
  {| s_name := "triangular_matrix_vector_product";
     s_params := [(KMat, "A"); (KTri, "t"); (KDiag, "d"); (KVec, "x"); (KVec, "y")];
     s_constrained := false; s_checked := true;
     s_test := TCustom "triangular_matrix_vector_product" ["A"; "t"; "d"; "x"; "y"];
     s_custom := ("triangular_matrix_vector_product", ["A"; "t"; "d"; "x"; "y"]);
     s_inline := ("triangular_matrix_vector_product", ["A"; "t"; "d"; "x"; "y"]) |};
  (* include/experimental/__p1673_bits/blas2_matrix_vector_product.hpp:1224-1263, trait at lines 208-226 *)
  {| s_name := "triangular_matrix_vector_product";
     s_params := [(KMat, "A"); (KTri, "t"); (KDiag, "d"); (KVec, "x"); (KVec, "y"); (KVec, "z")];
     s_constrained := false; s_checked := true;
     s_test := TCustom "triangular_matrix_vector_product" ["A"; "t"; "d"; "x"; "y"; "z"];
     s_custom := ("triangular_matrix_vector_product", ["A"; "t"; "d"; "x"; "y"; "z"]);
     s_inline := ("triangular_matrix_vector_product", ["A"; "t"; "d"; "x"; "y"; "z"]) |};
  (* include/experimental/__p1673_bits/blas2_matrix_vector_product.hpp:1358-1388, trait at lines 233-249 *)
  {| s_name := "triangular_matrix_vector_product";
     s_params := [(KMat, "A"); (KTri, "t"); (KDiag, "d"); (KVec, "y")];
     s_constrained := false; s_checked := false;
     s_test := TCustom "triangular_matrix_vector_product" ["A"; "t"; "d"; "y"];
     s_custom := ("triangular_matrix_vector_product", ["A"; "t"; "d"; "y"]);
     s_inline := ("triangular_matrix_vector_product", ["A"; "t"; "d"; "y"]) |};
  (* include/experimental/__p1673_bits/blas2_matrix_vector_solve.hpp:322-358, trait at lines 206-223 *)
  {| s_name := "triangular_matrix_vector_solve";
     s_params := [(KMat, "A"); (KTri, "t"); (KDiag, "d"); (KVec, "b"); (KVec, "x")];
     s_constrained := false; s_checked := true;
     s_test := TCustom "triangular_matrix_vector_solve" ["A"; "t"; "d"; "b"; "x"];
     s_custom := ("triangular_matrix_vector_solve", ["A"; "t"; "d"; "b"; "x"]);
     s_inline := ("triangular_matrix_vector_solve", ["A"; "t"; "d"; "b"; "x"]) |};
  (* include/experimental/__p1673_bits/blas3_matrix_product.hpp:734-761, trait at lines 2101-2129 *)
  {| s_name := "matrix_product";
     s_params := [(KMat, "A"); (KMat, "B"); (KMat, "C")];
     s_constrained := false; s_checked := true;
     s_test := TDistinct "matrix_product" ["A"; "B"; "C"];
     s_custom := ("matrix_product", ["A"; "B"; "C"]);
     s_inline := ("matrix_product", ["A"; "B"; "C"]) |};
  (* include/experimental/__p1673_bits/blas3_matrix_product.hpp:821-854, trait at lines 373-388 *)
  {| s_name := "matrix_product";
     s_params := [(KMat, "A"); (KMat, "B"); (KMat, "E"); (KMat, "C")];
     s_constrained := false; s_checked := true;
     s_test := TCustom "matrix_product" ["A"; "B"; "E"; "C"];
     s_custom := ("matrix_product", ["A"; "B"; "E"; "C"]);
     s_inline := ("matrix_product", ["A"; "B"; "E"; "C"]) |};
  (* include/experimental/__p1673_bits/blas3_matrix_product.hpp:940-971, trait at lines 395-411 *)
  {| s_name := "triangular_matrix_product";
     s_params := [(KMat, "A"); (KTri, "t"); (KDiag, "d"); (KMat, "B"); (KMat, "C")];
     s_constrained := false; s_checked := true;
     s_test := TCustom "triangular_matrix_product" ["A"; "t"; "d"; "B"; "C"];
     s_custom := ("triangular_matrix_left_product", ["A"; "t"; "d"; "B"; "C"]);
     s_inline := ("triangular_matrix_product", ["A"; "t"; "d"; "B"; "C"]) |};
  (* include/experimental/__p1673_bits/blas3_matrix_product.hpp:1054-1086, trait at lines 417-433 *)
  {| s_name := "triangular_matrix_product";
     s_params := [(KMat, "B"); (KMat, "A"); (KTri, "t"); (KDiag, "d"); (KMat, "C")];
     s_constrained := false; s_checked := true;
     s_test := TCustom "triangular_matrix_product" ["B"; "A"; "t"; "d"; "C"];
     s_custom := ("triangular_matrix_right_product", ["A"; "t"; "d"; "B"; "C"]);
     s_inline := ("triangular_matrix_product", ["B"; "A"; "t"; "d"; "C"]) |};
  (* include/experimental/__p1673_bits/blas3_matrix_product.hpp:1162-1188, trait at lines 439-454 *)
  {| s_name := "triangular_matrix_left_product";
     s_params := [(KMat, "A"); (KTri, "t"); (KDiag, "d"); (KMat, "C")];
     s_constrained := false; s_checked := true;
     s_test := TCustom "triangular_matrix_left_product" ["A"; "t"; "d"; "C"];
     s_custom := ("triangular_matrix_left_product", ["A"; "t"; "d"; "C"]);
     s_inline := ("triangular_matrix_left_product", ["A"; "t"; "d"; "C"]) |};
  (* include/experimental/__p1673_bits/blas3_matrix_product.hpp:1260-1286, trait at lines 460-475 *)
  {| s_name := "triangular_matrix_right_product";
     s_params := [(KMat, "A"); (KTri, "t"); (KDiag, "d"); (KMat, "C")];
     s_constrained := false; s_checked := true;
     s_test := TCustom "triangular_matrix_right_product" ["A"; "t"; "d"; "C"];
     s_custom := ("triangular_matrix_right_product", ["A"; "t"; "d"; "C"]);
     s_inline := ("triangular_matrix_right_product", ["A"; "t"; "d"; "C"]) |};
  (* include/experimental/__p1673_bits/blas3_matrix_product.hpp:1356-1386, trait at lines 481-496 *)
  {| s_name := "symmetric_matrix_product";
     s_params := [(KMat, "A"); (KTri, "t"); (KMat, "B"); (KMat, "C")];
     s_constrained := false; s_checked := true;
     s_test := TCustom "symmetric_matrix_product" ["A"; "t"; "B"; "C"];
     s_custom := ("symmetric_matrix_left_product", ["A"; "t"; "B"; "C"]);
     s_inline := ("symmetric_matrix_product", ["A"; "t"; "B"; "C"]) |};
  (* include/experimental/__p1673_bits/blas3_matrix_product.hpp:1459-1489, trait at lines 503-518 *)
  {| s_name := "symmetric_matrix_product";
     s_params := [(KMat, "B"); (KMat, "A"); (KTri, "t"); (KMat, "C")];
     s_constrained := false; s_checked := true;
     s_test := TCustom "symmetric_matrix_product" ["B"; "A"; "t"; "C"];
     s_custom := ("symmetric_matrix_right_product", ["A"; "t"; "B"; "C"]);
     s_inline := ("symmetric_matrix_product", ["B"; "A"; "t"; "C"]) |};
  (* include/experimental/__p1673_bits/blas3_matrix_product.hpp:1544-1578, trait at lines 524-540 *)
  {| s_name := "symmetric_matrix_product";
     s_params := [(KMat, "A"); (KTri, "t"); (KMat, "B"); (KMat, "E"); (KMat, "C")];
     s_constrained := false; s_checked := true;
     s_test := TCustom "symmetric_matrix_product" ["A"; "t"; "B"; "E"; "C"];
     s_custom := ("symmetric_matrix_left_product", ["A"; "t"; "B"; "E"; "C"]);
     s_inline := ("symmetric_matrix_product", ["A"; "t"; "B"; "E"; "C"]) |};
  (* include/experimental/__p1673_bits/blas3_matrix_product.hpp:1638-1672, trait at lines 546-562 *)
  {| s_name := "symmetric_matrix_product";
     s_params := [(KMat, "B"); (KMat, "A"); (KTri, "t"); (KMat, "E"); (KMat, "C")];
     s_constrained := false; s_checked := true;
     s_test := TCustom "symmetric_matrix_product" ["B"; "A"; "t"; "E"; "C"];
     s_custom := ("symmetric_matrix_right_product", ["A"; "t"; "B"; "E"; "C"]);
     s_inline := ("symmetric_matrix_product", ["B"; "A"; "t"; "E"; "C"]) |};
  (* include/experimental/__p1673_bits/blas3_matrix_product.hpp:1756-1786, trait at lines 569-584 *)
  {| s_name := "hermitian_matrix_product";
     s_params := [(KMat, "A"); (KTri, "t"); (KMat, "B"); (KMat, "C")];
     s_constrained := false; s_checked := true;
     s_test := TCustom "hermitian_matrix_product" ["A"; "t"; "B"; "C"];
     s_custom := ("hermitian_matrix_left_product", ["A"; "t"; "B"; "C"]);
     s_inline := ("hermitian_matrix_product", ["A"; "t"; "B"; "C"]) |};
  (* include/experimental/__p1673_bits/blas3_matrix_product.hpp:1858-1888, trait at lines 590-605 *)
  {| s_name := "hermitian_matrix_product";
     s_params := [(KMat, "B"); (KMat, "A"); (KTri, "t"); (KMat, "C")];
     s_constrained := false; s_checked := true;
     s_test := TCustom "hermitian_matrix_product" ["B"; "A"; "t"; "C"];
     s_custom := ("hermitian_matrix_right_product", ["A"; "t"; "B"; "C"]);
     s_inline := ("hermitian_matrix_product", ["B"; "A"; "t"; "C"]) |};
  (* include/experimental/__p1673_bits/blas3_matrix_product.hpp:1943-1977, trait at lines 612-628 *)
  {| s_name := "hermitian_matrix_product";
     s_params := [(KMat, "A"); (KTri, "t"); (KMat, "B"); (KMat, "E"); (KMat, "C")];
     s_constrained := false; s_checked := true;
     s_test := TCustom "hermitian_matrix_product" ["A"; "t"; "B"; "E"; "C"];
     s_custom := ("hermitian_matrix_left_product", ["A"; "t"; "B"; "E"; "C"]);
     s_inline := ("hermitian_matrix_product", ["A"; "t"; "B"; "E"; "C"]) |};
  (* include/experimental/__p1673_bits/blas3_matrix_product.hpp:2037-2071, trait at lines 634-650 *)
  {| s_name := "hermitian_matrix_product";
     s_params := [(KMat, "B"); (KMat, "A"); (KTri, "t"); (KMat, "E"); (KMat, "C")];
     s_constrained := false; s_checked := true;
     s_test := TCustom "hermitian_matrix_product" ["B"; "A"; "t"; "E"; "C"];
     s_custom := ("hermitian_matrix_right_product", ["A"; "t"; "B"; "E"; "C"]);
     s_inline := ("hermitian_matrix_product", ["B"; "A"; "t"; "E"; "C"]) |};
  (* include/experimental/__p1673_bits/blas3_matrix_rank_2k_update.hpp:130-160, trait at lines 57-70 *)
  {| s_name := "symmetric_matrix_rank_2k_update";
     s_params := [(KMat, "A"); (KMat, "B"); (KMat, "C"); (KTri, "t")];
     s_constrained := false; s_checked := true;
     s_test := TCustom "symmetric_matrix_rank_2k_update" ["A"; "B"; "C"; "t"];
     s_custom := ("symmetric_matrix_rank_2k_update", ["A"; "B"; "C"; "t"]);
     s_inline := ("symmetric_matrix_rank_2k_update", ["A"; "B"; "C"; "t"]) |};
  (* include/experimental/__p1673_bits/blas3_matrix_rank_2k_update.hpp:223-253, trait at lines 76-89 *)
  {| s_name := "hermitian_matrix_rank_2k_update";
     s_params := [(KMat, "A"); (KMat, "B"); (KMat, "C"); (KTri, "t")];
     s_constrained := false; s_checked := true;
     s_test := TCustom "hermitian_matrix_rank_2k_update" ["A"; "B"; "C"; "t"];
     s_custom := ("hermitian_matrix_rank_2k_update", ["A"; "B"; "C"; "t"]);
     s_inline := ("hermitian_matrix_rank_2k_update", ["A"; "B"; "C"; "t"]) |};
  (* include/experimental/__p1673_bits/blas3_matrix_rank_k_update.hpp:165-199, trait at lines 73-86 *)
  {| s_name := "symmetric_matrix_rank_k_update";
     s_params := [(KScal, "alpha"); (KMat, "A"); (KMat, "C"); (KTri, "t")];
     s_constrained := true; s_checked := true;
     s_test := TCustom "symmetric_matrix_rank_k_update" ["alpha"; "A"; "C"; "t"];
     s_custom := ("symmetric_matrix_rank_k_update", ["alpha"; "A"; "C"; "t"]);
     s_inline := ("symmetric_matrix_rank_k_update", ["alpha"; "A"; "C"; "t"]) |};
  (* include/experimental/__p1673_bits/blas3_matrix_rank_k_update.hpp:265-297, trait at lines 58-70 *)
  {| s_name := "symmetric_matrix_rank_k_update";
     s_params := [(KMat, "A"); (KMat, "C"); (KTri, "t")];
     s_constrained := true; s_checked := true;
     s_test := TCustom "symmetric_matrix_rank_k_update" ["A"; "C"; "t"];
     s_custom := ("symmetric_matrix_rank_k_update", ["A"; "C"; "t"]);
     s_inline := ("symmetric_matrix_rank_k_update", ["A"; "C"; "t"]) |};
  (* include/experimental/__p1673_bits/blas3_matrix_rank_k_update.hpp:367-401, trait at lines 108-121 *)
  {| s_name := "hermitian_matrix_rank_k_update";
     s_params := [(KScal, "alpha"); (KMat, "A"); (KMat, "C"); (KTri, "t")];
     s_constrained := true; s_checked := true;
     s_test := TCustom "hermitian_matrix_rank_k_update" ["alpha"; "A"; "C"; "t"];
     s_custom := ("hermitian_matrix_rank_k_update", ["alpha"; "A"; "C"; "t"]);
     s_inline := ("hermitian_matrix_rank_k_update", ["alpha"; "A"; "C"; "t"]) |};
  (* include/experimental/__p1673_bits/blas3_matrix_rank_k_update.hpp:470-502, trait at lines 93-105 *)
  {| s_name := "hermitian_matrix_rank_k_update";
     s_params := [(KMat, "A"); (KMat, "C"); (KTri, "t")];
     s_constrained := true; s_checked := true;
     s_test := TCustom "hermitian_matrix_rank_k_update" ["A"; "C"; "t"];
     s_custom := ("hermitian_matrix_rank_k_update", ["A"; "C"; "t"]);
     s_inline := ("hermitian_matrix_rank_k_update", ["A"; "C"; "t"]) |};
  (* include/experimental/__p1673_bits/blas3_triangular_matrix_matrix_solve.hpp:305-330, trait at lines 212-229 *)
  {| s_name := "triangular_matrix_matrix_left_solve";
     s_params := [(KMat, "A"); (KTri, "t"); (KDiag, "d"); (KMat, "B"); (KMat, "X")];
     s_constrained := false; s_checked := true;
     s_test := TCustom "triangular_matrix_matrix_left_solve" ["A"; "t"; "d"; "B"; "X"];
     s_custom := ("triangular_matrix_matrix_left_solve", ["A"; "t"; "d"; "B"; "X"]);
     s_inline := ("triangular_matrix_matrix_left_solve", ["A"; "t"; "d"; "B"; "X"]) |};
  (* include/experimental/__p1673_bits/blas3_triangular_matrix_matrix_solve.hpp:374-399, trait at lines 235-252 *)
  {| s_name := "triangular_matrix_matrix_right_solve";
     s_params := [(KMat, "A"); (KTri, "t"); (KDiag, "d"); (KMat, "B"); (KMat, "X")];
     s_constrained := false; s_checked := true;
     s_test := TCustom "triangular_matrix_matrix_right_solve" ["A"; "t"; "d"; "B"; "X"];
     s_custom := ("triangular_matrix_matrix_right_solve", ["A"; "t"; "d"; "B"; "X"]);
     s_inline := ("triangular_matrix_matrix_right_solve", ["A"; "t"; "d"; "B"; "X"]) |};
  (* include/experimental/__p1673_bits/blas3_triangular_matrix_matrix_solve.hpp:445-472, trait at lines 258-276 *)
  {| s_name := "triangular_matrix_matrix_solve";
     s_params := [(KMat, "A"); (KTri, "t"); (KDiag, "d"); (KSide, "s"); (KMat, "B"); (KMat, "X")];
     s_constrained := false; s_checked := true;
     s_test := TCustom "triangular_matrix_matrix_right_solve" ["A"; "t"; "d"; "s"; "B"; "X"];
     s_custom := ("triangular_matrix_matrix_solve", ["A"; "t"; "d"; "s"; "B"; "X"]);
     s_inline := ("triangular_matrix_matrix_solve", ["A"; "t"; "d"; "s"; "B"; "X"]) |};
  (* include/experimental/__p1673_bits/blas2_matrix_vector_solve.hpp:291-321,
     the overload with a user supplied division: it has no trait *)
  {| s_name := "triangular_matrix_vector_solve";
     s_params := [(KMat, "A"); (KTri, "t"); (KDiag, "d"); (KVec, "b"); (KVec, "x"); (KScal, "divide")];
     s_constrained := false; s_checked := false;
     s_test := TNever;
     s_custom := ("", []);
     s_inline := ("triangular_matrix_vector_solve", ["A"; "t"; "d"; "b"; "x"; "divide"]) |}
].

(* The overloads that take [impl::inline_exec_t&&]: name and kinds of the
   parameters after the policy. *)
Definition inline_overloads : list (string * list kind) := [
  (* include/experimental/__p1673_bits/blas1_dot.hpp:92 *)
  ("dot", [KVec; KVec; KScal]);
  (* include/experimental/__p1673_bits/blas1_givens.hpp:388 *)
  ("apply_givens_rotation", [KVec; KVec; KScal; KScal]);
  (* include/experimental/__p1673_bits/blas1_givens.hpp:483 *)
  ("apply_givens_rotation", [KVec; KVec; KScal; KCplx]);
  (* include/experimental/__p1673_bits/blas1_linalg_add.hpp:182 *)
  ("add", [KObj; KObj; KObj]);
  (* include/experimental/__p1673_bits/blas1_linalg_copy.hpp:142 *)
  ("copy", [KObj; KObj]);
  (* include/experimental/__p1673_bits/blas1_linalg_swap.hpp:147 *)
  ("swap_elements", [KObj; KObj]);
  (* include/experimental/__p1673_bits/blas1_matrix_frob_norm.hpp:87 *)
  ("matrix_frob_norm", [KMat; KScal]);
  (* include/experimental/__p1673_bits/blas1_matrix_inf_norm.hpp:88 *)
  ("matrix_inf_norm", [KMat; KScal]);
  (* include/experimental/__p1673_bits/blas1_matrix_one_norm.hpp:89 *)
  ("matrix_one_norm", [KMat; KScal]);
  (* include/experimental/__p1673_bits/blas1_scale.hpp:111 *)
  ("scale", [KScal; KObj]);
  (* include/experimental/__p1673_bits/blas1_vector_abs_sum.hpp:82 *)
  ("vector_abs_sum", [KVec; KScal]);
  (* include/experimental/__p1673_bits/blas1_vector_idx_abs_max.hpp:125 *)
  ("vector_idx_abs_max", [KVec]);
  (* include/experimental/__p1673_bits/blas1_vector_sum_of_squares.hpp:91 *)
  ("vector_sum_of_squares", [KVec; KScal]);
  (* include/experimental/__p1673_bits/blas2_matrix_rank_1_update.hpp:177 *)
  ("matrix_rank_1_update", [KVec; KVec; KMat]);
  (* include/experimental/__p1673_bits/blas2_matrix_rank_1_update.hpp:313 *)
  ("symmetric_matrix_rank_1_update", [KScal; KVec; KMat; KTri]);
  (* include/experimental/__p1673_bits/blas2_matrix_rank_1_update.hpp:421 *)
  ("symmetric_matrix_rank_1_update", [KVec; KMat; KTri]);
  (* include/experimental/__p1673_bits/blas2_matrix_rank_1_update.hpp:526 *)
  ("hermitian_matrix_rank_1_update", [KScal; KVec; KMat; KTri]);
  (* include/experimental/__p1673_bits/blas2_matrix_rank_1_update.hpp:636 *)
  ("hermitian_matrix_rank_1_update", [KVec; KMat; KTri]);
  (* include/experimental/__p1673_bits/blas2_matrix_rank_2_update.hpp:114 *)
  ("symmetric_matrix_rank_2_update", [KVec; KVec; KMat; KTri]);
  (* include/experimental/__p1673_bits/blas2_matrix_rank_2_update.hpp:205 *)
  ("hermitian_matrix_rank_2_update", [KVec; KVec; KMat; KTri]);
  (* include/experimental/__p1673_bits/blas2_matrix_vector_product.hpp:291 *)
  ("matrix_vector_product", [KMat; KVec; KVec]);
  (* include/experimental/__p1673_bits/blas2_matrix_vector_product.hpp:408 *)
  ("matrix_vector_product", [KMat; KVec; KVec; KVec]);
  (* include/experimental/__p1673_bits/blas2_matrix_vector_product.hpp:523 *)
  ("symmetric_matrix_vector_product", [KMat; KTri; KVec; KVec]);
  (* include/experimental/__p1673_bits/blas2_matrix_vector_product.hpp:643 *)
  ("symmetric_matrix_vector_product", [KMat; KTri; KVec; KVec; KVec]);
  (* include/experimental/__p1673_bits/blas2_matrix_vector_product.hpp:776 *)
  ("hermitian_matrix_vector_product", [KMat; KTri; KVec; KVec]);
  (* include/experimental/__p1673_bits/blas2_matrix_vector_product.hpp:903 *)
  ("hermitian_matrix_vector_product", [KMat; KTri; KVec; KVec; KVec]);
  (* include/experimental/__p1673_bits/blas2_matrix_vector_product.hpp:1037 *)
  ("triangular_matrix_vector_product", [KMat; KTri; KDiag; KVec; KVec]);
  (* include/experimental/__p1673_bits/blas2_matrix_vector_product.hpp:1177 *)
  ("triangular_matrix_vector_product", [KMat; KTri; KDiag; KVec; KVec; KVec]);
  (* include/experimental/__p1673_bits/blas2_matrix_vector_product.hpp:1322 *)
  ("triangular_matrix_vector_product", [KMat; KTri; KDiag; KVec]);
  (* include/experimental/__p1673_bits/blas2_matrix_vector_solve.hpp:245 *)
  ("triangular_matrix_vector_solve", [KMat; KTri; KDiag; KVec; KVec; KScal]);
  (* include/experimental/__p1673_bits/blas3_matrix_product.hpp:667 *)
  ("matrix_product", [KMat; KMat; KMat]);
  (* include/experimental/__p1673_bits/blas3_matrix_product.hpp:802 *)
  ("matrix_product", [KMat; KMat; KMat; KMat]);
  (* include/experimental/__p1673_bits/blas3_matrix_product.hpp:898 *)
  ("triangular_matrix_product", [KMat; KTri; KDiag; KMat; KMat]);
  (* include/experimental/__p1673_bits/blas3_matrix_product.hpp:1012 *)
  ("triangular_matrix_product", [KMat; KMat; KTri; KDiag; KMat]);
  (* include/experimental/__p1673_bits/blas3_matrix_product.hpp:1125 *)
  ("triangular_matrix_left_product", [KMat; KTri; KDiag; KMat]);
  (* include/experimental/__p1673_bits/blas3_matrix_product.hpp:1219 *)
  ("triangular_matrix_right_product", [KMat; KTri; KDiag; KMat]);
  (* include/experimental/__p1673_bits/blas3_matrix_product.hpp:1323 *)
  ("symmetric_matrix_product", [KMat; KTri; KMat; KMat]);
  (* include/experimental/__p1673_bits/blas3_matrix_product.hpp:1426 *)
  ("symmetric_matrix_product", [KMat; KMat; KTri; KMat]);
  (* include/experimental/__p1673_bits/blas3_matrix_product.hpp:1533 *)
  ("symmetric_matrix_product", [KMat; KTri; KMat; KMat; KMat]);
  (* include/experimental/__p1673_bits/blas3_matrix_product.hpp:1627 *)
  ("symmetric_matrix_product", [KMat; KMat; KTri; KMat; KMat]);
  (* include/experimental/__p1673_bits/blas3_matrix_product.hpp:1717 *)
  ("hermitian_matrix_product", [KMat; KTri; KMat; KMat]);
  (* include/experimental/__p1673_bits/blas3_matrix_product.hpp:1825 *)
  ("hermitian_matrix_product", [KMat; KMat; KTri; KMat]);
  (* include/experimental/__p1673_bits/blas3_matrix_product.hpp:1932 *)
  ("hermitian_matrix_product", [KMat; KTri; KMat; KMat; KMat]);
  (* include/experimental/__p1673_bits/blas3_matrix_product.hpp:2026 *)
  ("hermitian_matrix_product", [KMat; KMat; KTri; KMat; KMat]);
  (* include/experimental/__p1673_bits/blas3_matrix_rank_2k_update.hpp:108 *)
  ("symmetric_matrix_rank_2k_update", [KMat; KMat; KMat; KTri]);
  (* include/experimental/__p1673_bits/blas3_matrix_rank_2k_update.hpp:200 *)
  ("hermitian_matrix_rank_2k_update", [KMat; KMat; KMat; KTri]);
  (* include/experimental/__p1673_bits/blas3_matrix_rank_k_update.hpp:143 *)
  ("symmetric_matrix_rank_k_update", [KScal; KMat; KMat; KTri]);
  (* include/experimental/__p1673_bits/blas3_matrix_rank_k_update.hpp:244 *)
  ("symmetric_matrix_rank_k_update", [KMat; KMat; KTri]);
  (* include/experimental/__p1673_bits/blas3_matrix_rank_k_update.hpp:342 *)
  ("hermitian_matrix_rank_k_update", [KScal; KMat; KMat; KTri]);
  (* include/experimental/__p1673_bits/blas3_matrix_rank_k_update.hpp:446 *)
  ("hermitian_matrix_rank_k_update", [KMat; KMat; KTri]);
  (* include/experimental/__p1673_bits/blas3_triangular_matrix_matrix_solve.hpp:289 *)
  ("triangular_matrix_matrix_left_solve", [KMat; KTri; KDiag; KMat; KMat]);
  (* include/experimental/__p1673_bits/blas3_triangular_matrix_matrix_solve.hpp:358 *)
  ("triangular_matrix_matrix_right_solve", [KMat; KTri; KDiag; KMat; KMat]);
  (* include/experimental/__p1673_bits/blas3_triangular_matrix_matrix_solve.hpp:428 *)
  ("triangular_matrix_matrix_solve", [KMat; KTri; KDiag; KSide; KMat; KMat]);
  (* include/experimental/__p1673_bits/blas2_matrix_vector_solve.hpp:280 *)
  ("triangular_matrix_vector_solve", [KMat; KTri; KDiag; KVec; KVec]);
  (* include/experimental/__p1673_bits/blas1_vector_norm2.hpp:84 *)
  ("vector_two_norm", [KVec; KScal])
].

(* The overloads without a policy: name, parameters, and the call they make with
   [impl::default_exec_t] in front. *)
Definition plain_overloads : list plain_overload := [
  (* include/experimental/__p1673_bits/blas1_dot.hpp:158 *)
  {| n_name := "dot"; n_params := [(KVec, "v1"); (KVec, "v2"); (KScal, "init")];
     n_call := ("dot", ["v1"; "v2"; "init"]) |};
  (* include/experimental/__p1673_bits/blas1_givens.hpp:463 *)
  {| n_name := "apply_givens_rotation"; n_params := [(KVec, "x"); (KVec, "y"); (KScal, "c"); (KScal, "s")];
     n_call := ("apply_givens_rotation", ["x"; "y"; "c"; "s"]) |};
  (* include/experimental/__p1673_bits/blas1_givens.hpp:558 *)
  {| n_name := "apply_givens_rotation"; n_params := [(KVec, "x"); (KVec, "y"); (KScal, "c"); (KCplx, "s")];
     n_call := ("apply_givens_rotation", ["x"; "y"; "c"; "s"]) |};
  (* include/experimental/__p1673_bits/blas1_linalg_add.hpp:262 *)
  {| n_name := "add"; n_params := [(KObj, "x"); (KObj, "y"); (KObj, "z")];
     n_call := ("add", ["x"; "y"; "z"]) |};
  (* include/experimental/__p1673_bits/blas1_linalg_copy.hpp:203 *)
  {| n_name := "copy"; n_params := [(KObj, "x"); (KObj, "y")];
     n_call := ("copy", ["x"; "y"]) |};
  (* include/experimental/__p1673_bits/blas1_linalg_swap.hpp:210 *)
  {| n_name := "swap_elements"; n_params := [(KObj, "x"); (KObj, "y")];
     n_call := ("swap_elements", ["x"; "y"]) |};
  (* include/experimental/__p1673_bits/blas1_matrix_frob_norm.hpp:169 *)
  {| n_name := "matrix_frob_norm"; n_params := [(KMat, "A"); (KScal, "init")];
     n_call := ("matrix_frob_norm", ["A"; "init"]) |};
  (* include/experimental/__p1673_bits/blas1_matrix_inf_norm.hpp:155 *)
  {| n_name := "matrix_inf_norm"; n_params := [(KMat, "A"); (KScal, "init")];
     n_call := ("matrix_inf_norm", ["A"; "init"]) |};
  (* include/experimental/__p1673_bits/blas1_matrix_one_norm.hpp:159 *)
  {| n_name := "matrix_one_norm"; n_params := [(KMat, "A"); (KScal, "init")];
     n_call := ("matrix_one_norm", ["A"; "init"]) |};
  (* include/experimental/__p1673_bits/blas1_scale.hpp:160 *)
  {| n_name := "scale"; n_params := [(KScal, "alpha"); (KObj, "x")];
     n_call := ("scale", ["alpha"; "x"]) |};
  (* include/experimental/__p1673_bits/blas1_vector_abs_sum.hpp:142 *)
  {| n_name := "vector_abs_sum"; n_params := [(KVec, "v"); (KScal, "init")];
     n_call := ("vector_abs_sum", ["v"; "init"]) |};
  (* include/experimental/__p1673_bits/blas1_vector_idx_abs_max.hpp:164 *)
  {| n_name := "vector_idx_abs_max"; n_params := [(KVec, "v")];
     n_call := ("vector_idx_abs_max", ["v"]) |};
  (* include/experimental/__p1673_bits/blas1_vector_norm2.hpp:134 *)
  {| n_name := "vector_two_norm"; n_params := [(KVec, "x"); (KScal, "init")];
     n_call := ("vector_two_norm", ["x"; "init"]) |};
  (* include/experimental/__p1673_bits/blas1_vector_sum_of_squares.hpp:162 *)
  {| n_name := "vector_sum_of_squares"; n_params := [(KVec, "v"); (KScal, "init")];
     n_call := ("vector_sum_of_squares", ["v"; "init"]) |};
  (* include/experimental/__p1673_bits/blas2_matrix_rank_1_update.hpp:242 *)
  {| n_name := "matrix_rank_1_update"; n_params := [(KVec, "x"); (KVec, "y"); (KMat, "A")];
     n_call := ("matrix_rank_1_update", ["x"; "y"; "A"]) |};
  (* include/experimental/__p1673_bits/blas2_matrix_rank_1_update.hpp:400 *)
  {| n_name := "symmetric_matrix_rank_1_update"; n_params := [(KScal, "alpha"); (KVec, "x"); (KMat, "A"); (KTri, "t")];
     n_call := ("symmetric_matrix_rank_1_update", ["alpha"; "x"; "A"; "t"]) |};
  (* include/experimental/__p1673_bits/blas2_matrix_rank_1_update.hpp:502 *)
  {| n_name := "symmetric_matrix_rank_1_update"; n_params := [(KVec, "x"); (KMat, "A"); (KTri, "t")];
     n_call := ("symmetric_matrix_rank_1_update", ["x"; "A"; "t"]) |};
  (* include/experimental/__p1673_bits/blas2_matrix_rank_1_update.hpp:615 *)
  {| n_name := "hermitian_matrix_rank_1_update"; n_params := [(KScal, "alpha"); (KVec, "x"); (KMat, "A"); (KTri, "t")];
     n_call := ("hermitian_matrix_rank_1_update", ["alpha"; "x"; "A"; "t"]) |};
  (* include/experimental/__p1673_bits/blas2_matrix_rank_1_update.hpp:719 *)
  {| n_name := "hermitian_matrix_rank_1_update"; n_params := [(KVec, "x"); (KMat, "A"); (KTri, "t")];
     n_call := ("hermitian_matrix_rank_1_update", ["x"; "A"; "t"]) |};
  (* include/experimental/__p1673_bits/blas2_matrix_rank_2_update.hpp:186 *)
  {| n_name := "symmetric_matrix_rank_2_update"; n_params := [(KVec, "x"); (KVec, "y"); (KMat, "A"); (KTri, "t")];
     n_call := ("symmetric_matrix_rank_2_update", ["x"; "y"; "A"; "t"]) |};
  (* include/experimental/__p1673_bits/blas2_matrix_rank_2_update.hpp:279 *)
  {| n_name := "hermitian_matrix_rank_2_update"; n_params := [(KVec, "x"); (KVec, "y"); (KMat, "A"); (KTri, "t")];
     n_call := ("hermitian_matrix_rank_2_update", ["x"; "y"; "A"; "t"]) |};
  (* include/experimental/__p1673_bits/blas2_matrix_vector_product.hpp:361 *)
  {| n_name := "matrix_vector_product"; n_params := [(KMat, "A"); (KVec, "x"); (KVec, "y")];
     n_call := ("matrix_vector_product", ["A"; "x"; "y"]) |};
  (* include/experimental/__p1673_bits/blas2_matrix_vector_product.hpp:500 *)
  {| n_name := "matrix_vector_product"; n_params := [(KMat, "A"); (KVec, "x"); (KVec, "y"); (KVec, "z")];
     n_call := ("matrix_vector_product", ["A"; "x"; "y"; "z"]) |};
  (* include/experimental/__p1673_bits/blas2_matrix_vector_product.hpp:615 *)
  {| n_name := "symmetric_matrix_vector_product"; n_params := [(KMat, "A"); (KTri, "t"); (KVec, "x"); (KVec, "y")];
     n_call := ("symmetric_matrix_vector_product", ["A"; "t"; "x"; "y"]) |};
  (* include/experimental/__p1673_bits/blas2_matrix_vector_product.hpp:752 *)
  {| n_name := "symmetric_matrix_vector_product"; n_params := [(KMat, "A"); (KTri, "t"); (KVec, "x"); (KVec, "y"); (KVec, "z")];
     n_call := ("symmetric_matrix_vector_product", ["A"; "t"; "x"; "y"; "z"]) |};
  (* include/experimental/__p1673_bits/blas2_matrix_vector_product.hpp:871 *)
  {| n_name := "hermitian_matrix_vector_product"; n_params := [(KMat, "A"); (KTri, "t"); (KVec, "x"); (KVec, "y")];
     n_call := ("hermitian_matrix_vector_product", ["A"; "t"; "x"; "y"]) |};
  (* include/experimental/__p1673_bits/blas2_matrix_vector_product.hpp:1013 *)
  {| n_name := "hermitian_matrix_vector_product"; n_params := [(KMat, "A"); (KTri, "t"); (KVec, "x"); (KVec, "y"); (KVec, "z")];
     n_call := ("hermitian_matrix_vector_product", ["A"; "t"; "x"; "y"; "z"]) |};
  (* include/experimental/__p1673_bits/blas2_matrix_vector_product.hpp:1143 *)
  {| n_name := "triangular_matrix_vector_product"; n_params := [(KMat, "A"); (KTri, "t"); (KDiag, "d"); (KVec, "x"); (KVec, "y")];
     n_call := ("triangular_matrix_vector_product", ["A"; "t"; "d"; "x"; "y"]) |};
  (* include/experimental/__p1673_bits/blas2_matrix_vector_product.hpp:1301 *)
  {| n_name := "triangular_matrix_vector_product"; n_params := [(KMat, "A"); (KTri, "t"); (KDiag, "d"); (KVec, "x"); (KVec, "y"); (KVec, "z")];
     n_call := ("triangular_matrix_vector_product", ["A"; "t"; "d"; "x"; "y"; "z"]) |};
  (* include/experimental/__p1673_bits/blas2_matrix_vector_product.hpp:1412 *)
  {| n_name := "triangular_matrix_vector_product"; n_params := [(KMat, "A"); (KTri, "t"); (KDiag, "d"); (KVec, "y")];
     n_call := ("triangular_matrix_vector_product", ["A"; "t"; "d"; "y"]) |};
  (* include/experimental/__p1673_bits/blas2_matrix_vector_solve.hpp:386 *)
  {| n_name := "triangular_matrix_vector_solve"; n_params := [(KMat, "A"); (KTri, "t"); (KDiag, "d"); (KVec, "b"); (KVec, "x"); (KScal, "divide")];
     n_call := ("triangular_matrix_vector_solve", ["A"; "t"; "d"; "b"; "x"; "divide"]) |};
  (* include/experimental/__p1673_bits/blas2_matrix_vector_solve.hpp:412 *)
  {| n_name := "triangular_matrix_vector_solve"; n_params := [(KMat, "A"); (KTri, "t"); (KDiag, "d"); (KVec, "b"); (KVec, "x")];
     n_call := ("triangular_matrix_vector_solve", ["A"; "t"; "d"; "b"; "x"]) |};
  (* include/experimental/__p1673_bits/blas3_matrix_product.hpp:780 *)
  {| n_name := "matrix_product"; n_params := [(KMat, "A"); (KMat, "B"); (KMat, "C")];
     n_call := ("matrix_product", ["A"; "B"; "C"]) |};
  (* include/experimental/__p1673_bits/blas3_matrix_product.hpp:878 *)
  {| n_name := "matrix_product"; n_params := [(KMat, "A"); (KMat, "B"); (KMat, "E"); (KMat, "C")];
     n_call := ("matrix_product", ["A"; "B"; "E"; "C"]) |};
  (* include/experimental/__p1673_bits/blas3_matrix_product.hpp:994 *)
  {| n_name := "triangular_matrix_product"; n_params := [(KMat, "A"); (KTri, "t"); (KDiag, "d"); (KMat, "B"); (KMat, "C")];
     n_call := ("triangular_matrix_product", ["A"; "t"; "d"; "B"; "C"]) |};
  (* include/experimental/__p1673_bits/blas3_matrix_product.hpp:1109 *)
  {| n_name := "triangular_matrix_product"; n_params := [(KMat, "B"); (KMat, "A"); (KTri, "t"); (KDiag, "d"); (KMat, "C")];
     n_call := ("triangular_matrix_product", ["B"; "A"; "t"; "d"; "C"]) |};
  (* include/experimental/__p1673_bits/blas3_matrix_product.hpp:1206 *)
  {| n_name := "triangular_matrix_left_product"; n_params := [(KMat, "A"); (KTri, "t"); (KDiag, "d"); (KMat, "C")];
     n_call := ("triangular_matrix_left_product", ["A"; "t"; "d"; "C"]) |};
  (* include/experimental/__p1673_bits/blas3_matrix_product.hpp:1304 *)
  {| n_name := "triangular_matrix_right_product"; n_params := [(KMat, "A"); (KTri, "t"); (KDiag, "d"); (KMat, "C")];
     n_call := ("triangular_matrix_right_product", ["A"; "t"; "d"; "C"]) |};
  (* include/experimental/__p1673_bits/blas3_matrix_product.hpp:1407 *)
  {| n_name := "symmetric_matrix_product"; n_params := [(KMat, "A"); (KTri, "t"); (KMat, "B"); (KMat, "C")];
     n_call := ("symmetric_matrix_product", ["A"; "t"; "B"; "C"]) |};
  (* include/experimental/__p1673_bits/blas3_matrix_product.hpp:1510 *)
  {| n_name := "symmetric_matrix_product"; n_params := [(KMat, "B"); (KMat, "A"); (KTri, "t"); (KMat, "C")];
     n_call := ("symmetric_matrix_product", ["B"; "A"; "t"; "C"]) |};
  (* include/experimental/__p1673_bits/blas3_matrix_product.hpp:1604 *)
  {| n_name := "symmetric_matrix_product"; n_params := [(KMat, "A"); (KTri, "t"); (KMat, "B"); (KMat, "E"); (KMat, "C")];
     n_call := ("symmetric_matrix_product", ["A"; "t"; "B"; "E"; "C"]) |};
  (* include/experimental/__p1673_bits/blas3_matrix_product.hpp:1698 *)
  {| n_name := "symmetric_matrix_product"; n_params := [(KMat, "B"); (KMat, "A"); (KTri, "t"); (KMat, "E"); (KMat, "C")];
     n_call := ("symmetric_matrix_product", ["B"; "A"; "t"; "E"; "C"]) |};
  (* include/experimental/__p1673_bits/blas3_matrix_product.hpp:1807 *)
  {| n_name := "hermitian_matrix_product"; n_params := [(KMat, "A"); (KTri, "t"); (KMat, "B"); (KMat, "C")];
     n_call := ("hermitian_matrix_product", ["A"; "t"; "B"; "C"]) |};
  (* include/experimental/__p1673_bits/blas3_matrix_product.hpp:1909 *)
  {| n_name := "hermitian_matrix_product"; n_params := [(KMat, "B"); (KMat, "A"); (KTri, "t"); (KMat, "C")];
     n_call := ("hermitian_matrix_product", ["B"; "A"; "t"; "C"]) |};
  (* include/experimental/__p1673_bits/blas3_matrix_product.hpp:2003 *)
  {| n_name := "hermitian_matrix_product"; n_params := [(KMat, "A"); (KTri, "t"); (KMat, "B"); (KMat, "E"); (KMat, "C")];
     n_call := ("hermitian_matrix_product", ["A"; "t"; "B"; "E"; "C"]) |};
  (* include/experimental/__p1673_bits/blas3_matrix_product.hpp:2097 *)
  {| n_name := "hermitian_matrix_product"; n_params := [(KMat, "B"); (KMat, "A"); (KTri, "t"); (KMat, "E"); (KMat, "C")];
     n_call := ("hermitian_matrix_product", ["B"; "A"; "t"; "E"; "C"]) |};
  (* include/experimental/__p1673_bits/blas3_matrix_rank_2k_update.hpp:181 *)
  {| n_name := "symmetric_matrix_rank_2k_update"; n_params := [(KMat, "A"); (KMat, "B"); (KMat, "C"); (KTri, "t")];
     n_call := ("symmetric_matrix_rank_2k_update", ["A"; "B"; "C"; "t"]) |};
  (* include/experimental/__p1673_bits/blas3_matrix_rank_2k_update.hpp:274 *)
  {| n_name := "hermitian_matrix_rank_2k_update"; n_params := [(KMat, "A"); (KMat, "B"); (KMat, "C"); (KTri, "t")];
     n_call := ("hermitian_matrix_rank_2k_update", ["A"; "B"; "C"; "t"]) |};
  (* include/experimental/__p1673_bits/blas3_matrix_rank_k_update.hpp:224 *)
  {| n_name := "symmetric_matrix_rank_k_update"; n_params := [(KScal, "alpha"); (KMat, "A"); (KMat, "C"); (KTri, "t")];
     n_call := ("symmetric_matrix_rank_k_update", ["alpha"; "A"; "C"; "t"]) |};
  (* include/experimental/__p1673_bits/blas3_matrix_rank_k_update.hpp:319 *)
  {| n_name := "symmetric_matrix_rank_k_update"; n_params := [(KMat, "A"); (KMat, "C"); (KTri, "t")];
     n_call := ("symmetric_matrix_rank_k_update", ["A"; "C"; "t"]) |};
  (* include/experimental/__p1673_bits/blas3_matrix_rank_k_update.hpp:426 *)
  {| n_name := "hermitian_matrix_rank_k_update"; n_params := [(KScal, "alpha"); (KMat, "A"); (KMat, "C"); (KTri, "t")];
     n_call := ("hermitian_matrix_rank_k_update", ["alpha"; "A"; "C"; "t"]) |};
  (* include/experimental/__p1673_bits/blas3_matrix_rank_k_update.hpp:524 *)
  {| n_name := "hermitian_matrix_rank_k_update"; n_params := [(KMat, "A"); (KMat, "C"); (KTri, "t")];
     n_call := ("hermitian_matrix_rank_k_update", ["A"; "C"; "t"]) |};
  (* include/experimental/__p1673_bits/blas3_triangular_matrix_matrix_solve.hpp:346 *)
  {| n_name := "triangular_matrix_matrix_left_solve"; n_params := [(KMat, "A"); (KTri, "t"); (KDiag, "d"); (KMat, "B"); (KMat, "X")];
     n_call := ("triangular_matrix_matrix_left_solve", ["A"; "t"; "d"; "B"; "X"]) |};
  (* include/experimental/__p1673_bits/blas3_triangular_matrix_matrix_solve.hpp:415 *)
  {| n_name := "triangular_matrix_matrix_right_solve"; n_params := [(KMat, "A"); (KTri, "t"); (KDiag, "d"); (KMat, "B"); (KMat, "X")];
     n_call := ("triangular_matrix_matrix_right_solve", ["A"; "t"; "d"; "B"; "X"]) |};
  (* include/experimental/__p1673_bits/blas3_triangular_matrix_matrix_solve.hpp:490 *)
  {| n_name := "triangular_matrix_matrix_solve"; n_params := [(KMat, "A"); (KTri, "t"); (KDiag, "d"); (KSide, "s"); (KMat, "B"); (KMat, "X")];
     n_call := ("triangular_matrix_matrix_solve", ["A"; "t"; "d"; "s"; "B"; "X"]) |}
].

(* What a program may supply: execpolicy_mapper (linalg_execpolicy_mapper.hpp:68-72
   invites specialisations), the custom implementations (a call with this policy,
   name and arguments is viable and has the return type the trait asks for), and
   which arguments have the library's namespace among their associated ones. *)
Record env := {
  mapper : policy -> policy;
  custom : policy -> string -> list arg -> bool;
  assoc : arg -> bool
}.

(* linalg_execpolicy_mapper.hpp:71-72, the mapper when nothing specialises it *)
Definition default_mapper (p : policy) : policy := PInline.

(* Parameters accept arguments of the same kinds in the same order. *)
Fixpoint kinds_match (ks : list kind) (args : list arg) : bool :=
  match ks, args with
  | [], [] => true
  | k :: ks, a :: args => kind_eqb k (fst a) && kinds_match ks args
  | _, _ => false
  end.

(* The argument bound to a parameter name in the body of an overload. *)
Fixpoint bound (params : list arg) (args : list arg) (x : string) : arg :=
  match params, args with
  | p :: params, a :: args => if String.eqb (snd p) x then a else bound params args x
  | _, _ => (KScal, "?")
  end.

(* The argument list of a call made in the body of an overload. *)
Definition inst (s : site) (args : list arg) (xs : list string) : list arg :=
  map (bound (s_params s) args) xs.

(* An overload of the library accepts this policy, name and arguments
   (constraints: e.g. blas3_matrix_rank_k_update.hpp:177-181). *)
Definition takes (c : category) (q : policy) (name : string) (args : list arg) (s : site) : bool :=
  String.eqb (s_name s) name && kinds_match (map fst (s_params s)) args &&
  (negb (s_constrained s) || linalg_policy c q).

(* The library's policy overload chosen for a call. *)
Definition find_site (c : category) (q : policy) (name : string) (args : list arg) : option site :=
  find (takes c q name args) sites.

(* Argument dependent lookup reaches the library's namespace: layout_tags.hpp puts
   the tags there. *)
Definition adl (e : env) (args : list arg) : bool :=
  existsb (fun a => match fst a with KTri | KDiag | KSide => true | _ => assoc e a end) args.

(* Value of an availability trait for the mapped policy, e.g.
   blas1_linalg_copy.hpp:106-124: the call is well formed with the right return
   type, and the policy is not the inline one.  blas3_matrix_product.hpp:2100-2129
   asks in addition that the qualified and the unqualified call have different
   return types; the qualified call can only name the library's overload, which
   returns void, and the unqualified call returns void by the first conjunct. *)
Inductive ret_type := RVoid | ROther.
Definition ret_same (a b : ret_type) : bool :=
  match a, b with RVoid, RVoid | ROther, ROther => true | _, _ => false end.
Definition well_formed (e : env) (q : policy) (name : string) (args : list arg) : bool :=
  custom e q name args ||
  (adl e args && match find_site Rvalue q name args with Some _ => true | None => false end).
Definition trait (e : env) (s : site) (q : policy) (args : list arg) : bool :=
  match s_test s with
  | TCustom name xs => well_formed e q name (inst s args xs) && negb (is_inline q)
  | TDistinct name xs =>
      well_formed e q name (inst s args xs) && negb (ret_same RVoid RVoid) && negb (is_inline q)
  | TNever => false
  end.

(* What the call amounts to: a custom implementation, an inline overload, a
   program that does not compile, or an instantiation not finished within the
   given number of steps. *)
Inductive outcome :=
| RunsCustom (q : policy) (name : string) (args : list arg)
| RunsInline (name : string) (args : list arg)
| IllFormed
| Unfinished.

(* An inline overload with this signature exists. *)
Definition run_inline (name : string) (args : list arg) : outcome :=
  if existsb (fun o => String.eqb (fst o) name && kinds_match (snd o) args) inline_overloads
  then RunsInline name args else IllFormed.

(* Body of a policy overload, e.g. blas1_linalg_copy.hpp:174-183; the static_assert
   is linalg_execpolicy_mapper.hpp:87-97.  [fuel] bounds the number of nested
   instantiations of policy overloads. *)
Fixpoint dispatch (fuel : nat) (e : env) (s : site) (p : policy) (args : list arg) : outcome :=
  match fuel with
  | 0 => Unfinished
  | S fuel =>
      let q := mapper e p in
      if s_checked s && negb (is_inline p) && policy_eqb q p then IllFormed
      else if trait e s q args then
        let (name, xs) := s_custom s in
        let args' := inst s args xs in
        if custom e q name args' then RunsCustom q name args'
        else match find_site Rvalue q name args' with
             | Some s' => dispatch fuel e s' q args'
             | None => IllFormed
             end
      else let (name, xs) := s_inline s in run_inline name (inst s args xs)
  end.

(* A qualified call of an algorithm with a policy. *)
Definition call_with (fuel : nat) (e : env) (c : category) (p : policy)
    (name : string) (args : list arg) : outcome :=
  match find_site c p name args with
  | Some s => dispatch fuel e s p args
  | None => IllFormed
  end.

(* A call of an algorithm without a policy: the overload makes the call recorded
   in [plain_overloads] with a value of type default_exec_t. *)
Definition call_without (fuel : nat) (e : env) (name : string) (args : list arg) : outcome :=
  match find (fun o => String.eqb (n_name o) name && kinds_match (map fst (n_params o)) args)
             plain_overloads with
  | Some o =>
      let (callee, xs) := n_call o in
      call_with fuel e Rvalue PDefault callee (map (bound (n_params o) args) xs)
  | None => IllFormed
  end.

(* The algorithm called by the body of an inline overload, if its body is a call:
   the solve with a side makes a call without a policy
   (blas3_triangular_matrix_matrix_solve.hpp:437-442), vector_two_norm passes on its
   own policy, a named object of the inline type (blas1_vector_norm2.hpp:97), and the
   vector solve without a division forwards it as an rvalue to the inline overload with
   a division (blas2_matrix_vector_solve.hpp:285-286).  Every other body is loops. *)
Inductive inner_call :=
| CallsWithout (name : string) (args : list arg)
| CallsPolicy (c : category) (p : policy) (name : string) (args : list arg)
| CallsInline (name : string) (args : list arg)
| Loops.
Definition inner (name : string) (args : list arg) : inner_call :=
  if String.eqb name "triangular_matrix_matrix_solve" then
    match args with
    | [A; t; d; s; B; X] =>
        CallsWithout (if String.eqb (snd s) "left_side_t" then "triangular_matrix_matrix_left_solve"
                      else "triangular_matrix_matrix_right_solve") [A; t; d; B; X]
    | _ => Loops
    end
  else if String.eqb name "vector_two_norm" then
    match args with
    | [x; init] => CallsPolicy Lvalue PInline "vector_sum_of_squares" [x; (KScal, "ssq_init")]
    | _ => Loops
    end
  else if String.eqb name "triangular_matrix_vector_solve" then
    match args with
    | [A; t; d; b; x] => CallsInline name [A; t; d; b; x; (KScal, "divide")]
    | _ => Loops
    end
  else Loops.

(* The implementation whose loops run in the end: the outcome of the call, followed
   through the body of the inline overload it reaches.  No inline overload called by
   another one calls a third one ([inner] of the callees above is [Loops]). *)
Definition follow (fuel : nat) (e : env) (out : outcome) : outcome :=
  match out with
  | RunsInline name args =>
      match inner name args with
      | CallsWithout name' args' => call_without fuel e name' args'
      | CallsPolicy c p name' args' => call_with fuel e c p name' args'
      | CallsInline name' args' => run_inline name' args'
      | Loops => out
      end
  | _ => out
  end.
