(* C44: which implementation a call with an execution policy runs. *)
From Coq Require Import List String Bool Arith Lia.
From Verif Require Import Dispatch SpecDispatch PfDispatch.
Import ListNotations.
Local Open Scope string_scope.

(* The property, for every algorithm but the overwriting matrix_product, the
   one-sided products, the triangular solve with a side argument and the solve with
   a user supplied division, and for policies that one or two mappings make inline
   whenever an argument belongs to the library's namespace.  Missing: the listed
   algorithms and longer chains of policies, for which the statement is false (see
   the refutations below). *)
Theorem C44_dispatch_partial :
  forall (e : env) (c : category) (p : policy) (name : string) (args : list arg) (fuel : nat),
  algorithm name args -> one_name name args -> accepted c p name ->
  maps_away e p -> settled e p args -> 2 <= fuel ->
  as_documented e p name args (call_with fuel e c p name args).
Proof. exact call_ok. Qed.
Print Assumptions C44_dispatch_partial.

(* A policy mapped to the inline policy, as the default mapper does with every
   policy, runs the inline overload of the same name with the same arguments.  All
   algorithms. *)
Theorem C44_inline :
  forall (e : env) (c : category) (p : policy) (name : string) (args : list arg) (fuel : nat),
  algorithm name args -> accepted c p name -> mapper e p = PInline -> 1 <= fuel ->
  call_with fuel e c p name args = RunsInline name args.
Proof. exact call_inline. Qed.
Print Assumptions C44_inline.

(* The overload without a policy is the policy overload with default_exec_t.  All
   algorithms. *)
Theorem C44_without_policy :
  forall (e : env) (name : string) (args : list arg) (fuel : nat),
  algorithm name args ->
  call_without fuel e name args = call_with fuel e Rvalue PDefault name args.
Proof. exact call_without_ok. Qed.
Print Assumptions C44_without_policy.

(* With no custom implementation the call with a policy runs what the call without
   a policy runs, namely the inline overload. *)
Theorem C44_no_custom_partial :
  forall (e : env) (c : category) (p : policy) (name : string) (args : list arg) (fuel : nat),
  algorithm name args -> one_name name args -> accepted c p name -> no_custom e ->
  maps_away e p -> settled e p args -> maps_away e PDefault -> settled e PDefault args ->
  2 <= fuel ->
  call_with fuel e c p name args = RunsInline name args /\
  call_without fuel e name args = RunsInline name args.
Proof. exact call_no_custom. Qed.
Print Assumptions C44_no_custom_partial.

(* The rank-1 and rank-k updates of symmetric and Hermitian matrices have no overload for a
   policy of the program, nor for an lvalue, whatever custom implementation exists. *)
Theorem C44_rejected_policies :
  forall (e : env) (c : category) (p : policy) (name : string) (args : list arg) (fuel : nat),
  standard_policies_only name -> ~ accepted c p name ->
  call_with fuel e c p name args = IllFormed.
Proof. exact call_rejected. Qed.
Print Assumptions C44_rejected_policies.

Example C44_rejected_case :
  standard_policies_only "symmetric_matrix_rank_k_update" /\
  ~ accepted Lvalue (PStd 0) "symmetric_matrix_rank_k_update" /\ ~ accepted Rvalue (PUser 0) "symmetric_matrix_rank_k_update".
Proof.
  assert (standard_policies_only "symmetric_matrix_rank_k_update") as H by (vm_compute; tauto).
  split; [exact H|]. split; intros A; destruct (A H) as [? [?|[? ?]]]; discriminate.
Qed.

(* The overwriting matrix_product runs the inline overload whatever custom
   implementation exists. *)
Theorem C44_matrix_product_always_inline :
  forall (e : env) (c : category) (p : policy) (A B C : string) (fuel : nat),
  maps_away e p -> 1 <= fuel ->
  call_with fuel e c p "matrix_product" [(KMat, A); (KMat, B); (KMat, C)] =
  RunsInline "matrix_product" [(KMat, A); (KMat, B); (KMat, C)].
Proof. exact call_matrix_product. Qed.
Print Assumptions C44_matrix_product_always_inline.

(* The triangular, symmetric and hermitian products with a policy mapped to a
   non-inline one run the custom implementation of the left or right product, and
   do not compile without one. *)
Theorem C44_one_sided_products :
  forall (e : env) (c : category) (p : policy) (name name' : string)
    (args args' : list arg) (fuel : nat),
  redirected name args name' args' -> maps_away e p -> mapper e p <> PInline -> 1 <= fuel ->
  call_with fuel e c p name args =
  if custom e (mapper e p) name' args' then RunsCustom (mapper e p) name' args' else IllFormed.
Proof. exact redirected_call. Qed.
Print Assumptions C44_one_sided_products.

(* Maps the standard policy 0 to the user policy 0 and everything else to inline. *)
Definition par_mapper (p : policy) : policy :=
  match p with PStd 0 => PUser 0 | _ => PInline end.

(* A custom matrix_product for the mapped policy is not run. *)
Theorem C44_matrix_product_refuted :
  exists (e : env) (p : policy) (args : list arg),
    algorithm "matrix_product" args /\ maps_away e p /\ settled e p args /\
    mapper e p <> PInline /\ custom e (mapper e p) "matrix_product" args = true /\
    forall fuel, 2 <= fuel ->
      ~ as_documented e p "matrix_product" args
          (call_with fuel e Rvalue p "matrix_product" args).
Proof.
  set (args := [(KMat, "A"); (KMat, "B"); (KMat, "C")]).
  exists (one_custom par_mapper (PUser 0) "matrix_product" args), (PStd 0), args.
  split; [exists [KMat; KMat; KMat]; split; [vm_compute; tauto | reflexivity]|].
  split; [right; discriminate|]. split; [right; left; reflexivity|].
  split; [discriminate|]. split; [vm_compute; reflexivity|].
  intros fuel Hf H. unfold args in H.
  rewrite call_matrix_product in H by (try (right; discriminate); lia).
  destruct H as [(_ & _ & H) | [[H | H] _]]; try discriminate H.
Qed.
Print Assumptions C44_matrix_product_refuted.

(* A custom symmetric_matrix_product for the mapped policy makes the call ill formed. *)
Theorem C44_one_sided_products_refuted :
  exists (e : env) (p : policy) (args : list arg),
    algorithm "symmetric_matrix_product" args /\ maps_away e p /\ settled e p args /\
    mapper e p <> PInline /\ custom e (mapper e p) "symmetric_matrix_product" args = true /\
    forall fuel, 2 <= fuel ->
      call_with fuel e Rvalue p "symmetric_matrix_product" args = IllFormed.
Proof.
  set (args := [(KMat, "A"); (KTri, "t"); (KMat, "B"); (KMat, "C")]).
  exists (one_custom par_mapper (PUser 0) "symmetric_matrix_product" args), (PStd 0), args.
  split; [exists [KMat; KTri; KMat; KMat]; split; [vm_compute; tauto | reflexivity]|].
  split; [right; discriminate|]. split; [right; left; reflexivity|].
  split; [discriminate|]. split; [vm_compute; reflexivity|].
  intros fuel Hf.
  rewrite (redirected_call _ _ _ _ _ _ _ fuel (red_sym_left "A" "t" "B" "C"))
    by (try (right; discriminate); try discriminate; lia).
  reflexivity.
Qed.
Print Assumptions C44_one_sided_products_refuted.

(* With no custom implementation at all the same call is ill formed, while the call
   without a policy runs the inline overload. *)
Theorem C44_no_custom_refuted :
  exists (e : env) (p : policy) (args : list arg),
    algorithm "symmetric_matrix_product" args /\ maps_away e p /\ settled e p args /\
    no_custom e /\
    forall fuel, 2 <= fuel ->
      call_with fuel e Rvalue p "symmetric_matrix_product" args = IllFormed /\
      call_without fuel e "symmetric_matrix_product" args =
        RunsInline "symmetric_matrix_product" args.
Proof.
  set (args := [(KMat, "A"); (KTri, "t"); (KMat, "B"); (KMat, "C")]).
  set (e := {| mapper := par_mapper; custom := fun _ _ _ => false; assoc := fun _ => false |}).
  assert (algorithm "symmetric_matrix_product" args) as Halg
    by (exists [KMat; KTri; KMat; KMat]; split; [vm_compute; tauto | reflexivity]).
  exists e, (PStd 0), args.
  split; [exact Halg|].
  split; [right; discriminate|]. split; [right; left; reflexivity|].
  split; [intros q n l; reflexivity|].
  intros fuel Hf. split.
  - rewrite (redirected_call _ _ _ _ _ _ _ fuel (red_sym_left "A" "t" "B" "C"))
      by (try (right; discriminate); try discriminate; lia).
    reflexivity.
  - rewrite call_without_ok by exact Halg.
    apply call_inline; [exact Halg | intros _; auto | reflexivity | lia].
Qed.
Print Assumptions C44_no_custom_refuted.

(* A custom triangular_matrix_matrix_solve with a side argument is not run: the
   trait asks about triangular_matrix_matrix_right_solve. *)
Theorem C44_side_solve_refuted :
  exists (e : env) (p : policy) (args : list arg),
    algorithm "triangular_matrix_matrix_solve" args /\ maps_away e p /\ settled e p args /\
    mapper e p <> PInline /\ custom e (mapper e p) "triangular_matrix_matrix_solve" args = true /\
    forall fuel, 2 <= fuel ->
      call_with fuel e Rvalue p "triangular_matrix_matrix_solve" args =
      RunsInline "triangular_matrix_matrix_solve" args.
Proof.
  set (args := [(KMat, "A"); (KTri, "t"); (KDiag, "d"); (KSide, "s"); (KMat, "B"); (KMat, "X")]).
  exists (one_custom par_mapper (PUser 0) "triangular_matrix_matrix_solve" args), (PStd 0), args.
  split; [exists [KMat; KTri; KDiag; KSide; KMat; KMat]; split; [vm_compute; tauto | reflexivity]|].
  split; [right; discriminate|]. split; [right; left; reflexivity|].
  split; [discriminate|]. split; [vm_compute; reflexivity|].
  intros fuel Hf. destruct fuel as [|[|fuel]]; try lia. vm_compute. reflexivity.
Qed.
Print Assumptions C44_side_solve_refuted.

(* The rank-1 and rank-k updates do not accept a standard policy given as an lvalue,
   such as std::execution::par, while they accept the same policy as an rvalue. *)
Theorem C44_lvalue_policy_refuted :
  exists (e : env) (p : policy) (args : list arg),
    algorithm "symmetric_matrix_rank_k_update" args /\ maps_away e p /\ mapper e p = PInline /\
    forall fuel, 2 <= fuel ->
      call_with fuel e Lvalue p "symmetric_matrix_rank_k_update" args = IllFormed /\
      call_with fuel e Rvalue p "symmetric_matrix_rank_k_update" args =
        RunsInline "symmetric_matrix_rank_k_update" args.
Proof.
  set (args := [(KScal, "alpha"); (KMat, "A"); (KMat, "C"); (KTri, "t")]).
  assert (algorithm "symmetric_matrix_rank_k_update" args) as Halg
    by (exists [KScal; KMat; KMat; KTri]; split; [vm_compute; tauto | reflexivity]).
  exists {| mapper := default_mapper; custom := fun _ _ _ => false; assoc := fun _ => false |},
    (PStd 0), args.
  split; [exact Halg|]. split; [right; discriminate|]. split; [reflexivity|].
  intros fuel Hf. split; [vm_compute; reflexivity|].
  apply call_inline; [exact Halg | intros _; eauto | reflexivity | lia].
Qed.
Print Assumptions C44_lvalue_policy_refuted.

(* A mapped policy that maps to itself, as kokkos_exec does
   (exec_policy_wrapper_kk.hpp:11-12), and has no custom implementation makes a call
   with a triangle argument ill formed instead of inline. *)
Theorem C44_self_mapped_refuted :
  exists (e : env) (p : policy) (args : list arg),
    algorithm "hermitian_matrix_rank_2_update" args /\ maps_away e p /\
    mapper e (mapper e p) = mapper e p /\ no_custom e /\
    forall fuel, 2 <= fuel ->
      call_with fuel e Rvalue p "hermitian_matrix_rank_2_update" args = IllFormed.
Proof.
  set (args := [(KVec, "x"); (KVec, "y"); (KMat, "A"); (KTri, "t")]).
  exists {| mapper := fun p => match p with PInline => PInline | _ => PUser 0 end;
            custom := fun _ _ _ => false; assoc := fun _ => false |}, (PStd 0), args.
  split; [exists [KVec; KVec; KMat; KTri]; split; [vm_compute; tauto | reflexivity]|].
  split; [right; discriminate|]. split; [reflexivity|]. split; [intros q n l; reflexivity|].
  intros fuel Hf. destruct fuel as [|[|fuel]]; try lia. vm_compute. reflexivity.
Qed.
Print Assumptions C44_self_mapped_refuted.

(* Along a longer chain of policies the call may run the custom implementation of a
   policy other than the mapped one. *)
Theorem C44_chain_refuted :
  exists (e : env) (p q : policy) (args : list arg),
    algorithm "hermitian_matrix_rank_2_update" args /\ maps_away e p /\
    custom e (mapper e p) "hermitian_matrix_rank_2_update" args = false /\ q <> mapper e p /\
    forall fuel, 2 <= fuel ->
      call_with fuel e Rvalue p "hermitian_matrix_rank_2_update" args =
      RunsCustom q "hermitian_matrix_rank_2_update" args.
Proof.
  set (args := [(KVec, "x"); (KVec, "y"); (KMat, "A"); (KTri, "t")]).
  exists (one_custom (fun p => match p with PStd 0 => PUser 0 | PUser 0 => PUser 1 | _ => PInline end)
            (PUser 1) "hermitian_matrix_rank_2_update" args), (PStd 0), (PUser 1), args.
  split; [exists [KVec; KVec; KMat; KTri]; split; [vm_compute; tauto | reflexivity]|].
  split; [right; discriminate|]. split; [vm_compute; reflexivity|]. split; [discriminate|].
  intros fuel Hf. destruct fuel as [|[|fuel]]; try lia. vm_compute. reflexivity.
Qed.
Print Assumptions C44_chain_refuted.

(* Two policies that map to each other: the instantiation never ends. *)
Theorem C44_cycle_refuted :
  exists (e : env) (p : policy) (args : list arg),
    algorithm "symmetric_matrix_rank_2_update" args /\ maps_away e p /\
    maps_away e (mapper e p) /\ no_custom e /\
    forall fuel, call_with fuel e Rvalue p "symmetric_matrix_rank_2_update" args = Unfinished.
Proof.
  exists {| mapper := fun p => match p with PUser 0 => PUser 1 | PUser 1 => PUser 0 | _ => PInline end;
            custom := fun _ _ _ => false; assoc := fun _ => false |}, (PUser 0),
         [(KVec, "x"); (KVec, "y"); (KMat, "A"); (KTri, "t")].
  split; [exists [KVec; KVec; KMat; KTri]; split; [vm_compute; tauto | reflexivity]|].
  split; [right; discriminate|]. split; [right; discriminate|]. split; [intros q n l; reflexivity|].
  exact cycle_unfinished.
Qed.
Print Assumptions C44_cycle_refuted.

(* A concrete case: a program with a custom scale and a custom symmetric rank-2
   update for a user policy to which std::execution::par is mapped. *)
Definition case_env : env :=
  {| mapper := par_mapper;
     custom := fun q name args =>
       policy_eqb q (PUser 0) &&
       (String.eqb name "scale" || String.eqb name "symmetric_matrix_rank_2_update");
     assoc := fun _ => false |}.
Example C44_case :
  let up := [(KVec, "x"); (KVec, "y"); (KMat, "A"); (KTri, "t")] in
  call_with 2 case_env Lvalue (PStd 0) "scale" [(KScal, "alpha"); (KObj, "x")] =
    RunsCustom (PUser 0) "scale" [(KScal, "alpha"); (KObj, "x")] /\
  call_with 2 case_env Lvalue (PStd 0) "symmetric_matrix_rank_2_update" up =
    RunsCustom (PUser 0) "symmetric_matrix_rank_2_update" up /\
  call_with 2 case_env Lvalue (PStd 0) "hermitian_matrix_rank_2_update" up =
    RunsInline "hermitian_matrix_rank_2_update" up /\
  call_with 2 case_env Lvalue (PStd 1) "symmetric_matrix_rank_2_update" up =
    RunsInline "symmetric_matrix_rank_2_update" up /\
  call_without 2 case_env "symmetric_matrix_rank_2_update" up =
    RunsInline "symmetric_matrix_rank_2_update" up.
Proof. vm_compute. repeat split. Qed.

Example C44_case_hypotheses :
  let up := [(KVec, "x"); (KVec, "y"); (KMat, "A"); (KTri, "t")] in
  algorithm "symmetric_matrix_rank_2_update" up /\
  one_name "symmetric_matrix_rank_2_update" up /\
  accepted Lvalue (PStd 0) "symmetric_matrix_rank_2_update" /\
  maps_away case_env (PStd 0) /\ settled case_env (PStd 0) up.
Proof.
  split; [exists [KVec; KVec; KMat; KTri]; split; [vm_compute; tauto | reflexivity]|].
  split; [split; [simpl; intuition discriminate | split; discriminate]|].
  split; [intros H; unfold standard_policies_only in H; simpl in H; intuition discriminate|].
  split; [right; discriminate | right; left; reflexivity].
Qed.

(* C79: a policy mapped to the inline one runs the loops of the library throughout, for
   every algorithm but the triangular solve with a side argument.  Missing: that solve, for
   which the statement is false (C79_side_solve, C79_side_solve_refuted). *)
Theorem C79_library_loops_partial :
  forall (e : env) (c : category) (p : policy) (name : string) (args : list arg) (fuel : nat),
  algorithm name args -> name <> "triangular_matrix_matrix_solve" -> accepted c p name ->
  mapper e p = PInline -> mapper e PInline = PInline -> 1 <= fuel ->
  library_loops name args (follow fuel e (call_with fuel e c p name args)).
Proof. exact inline_follow. Qed.
Print Assumptions C79_library_loops_partial.

(* The solve with a side drops the policy of the call and makes the call without a policy
   of the one-sided solve, whatever custom implementations exist. *)
Theorem C79_side_solve :
  forall (e : env) (c : category) (p : policy) (fuel : nat) (A t d s B X : string),
  mapper e p = PInline -> 1 <= fuel ->
  follow fuel e (call_with fuel e c p "triangular_matrix_matrix_solve"
    [(KMat, A); (KTri, t); (KDiag, d); (KSide, s); (KMat, B); (KMat, X)]) =
  call_with fuel e Rvalue PDefault
    (if String.eqb s "left_side_t" then "triangular_matrix_matrix_left_solve"
     else "triangular_matrix_matrix_right_solve")
    [(KMat, A); (KTri, t); (KDiag, d); (KMat, B); (KMat, X)].
Proof. exact side_follow. Qed.
Print Assumptions C79_side_solve.

(* So a program that asks for the inline policy by name, in an environment where only the
   default policy is mapped elsewhere, as exec_policy_wrapper_kk.hpp:21 does, runs the
   custom implementation of another policy. *)
Theorem C79_side_solve_refuted :
  exists (e : env) (q : policy) (args args' : list arg),
    algorithm "triangular_matrix_matrix_solve" args /\ mapper e PInline = PInline /\
    q <> PInline /\ custom e PInline "triangular_matrix_matrix_left_solve" args' = false /\
    forall fuel, 2 <= fuel ->
      follow fuel e (call_with fuel e Rvalue PInline "triangular_matrix_matrix_solve" args) =
      RunsCustom q "triangular_matrix_matrix_left_solve" args'.
Proof.
  set (args := [(KMat, "A"); (KTri, "t"); (KDiag, "d"); (KSide, "left_side_t"); (KMat, "B"); (KMat, "X")]).
  set (args' := [(KMat, "A"); (KTri, "t"); (KDiag, "d"); (KMat, "B"); (KMat, "X")]).
  exists (one_custom (fun p => match p with PDefault => PUser 0 | _ => PInline end)
            (PUser 0) "triangular_matrix_matrix_left_solve" args'), (PUser 0), args, args'.
  split; [exists [KMat; KTri; KDiag; KSide; KMat; KMat]; split; [vm_compute; tauto | reflexivity]|].
  split; [reflexivity|]. split; [discriminate|]. split; [vm_compute; reflexivity|].
  intros fuel Hf. unfold args. rewrite side_follow by (try reflexivity; lia).
  destruct fuel as [|[|fuel]]; try lia. vm_compute. reflexivity.
Qed.
Print Assumptions C79_side_solve_refuted.

(* A custom sum of squares of the mapped policy is not reached by a 2-norm with an inline
   policy; the side solve of the same program reaches the custom one-sided solve. *)
Definition case_env_default : env :=
  {| mapper := fun p => match p with PDefault => PUser 0 | _ => PInline end;
     custom := fun q name args => policy_eqb q (PUser 0);
     assoc := fun _ => false |}.
Example C79_case :
  algorithm "vector_two_norm" [(KVec, "x"); (KScal, "init")] /\
  accepted Lvalue (PStd 0) "vector_two_norm" /\
  mapper case_env_default (PStd 0) = PInline /\ mapper case_env_default PInline = PInline /\
  follow 2 case_env_default (call_with 2 case_env_default Lvalue (PStd 0) "vector_two_norm"
    [(KVec, "x"); (KScal, "init")]) =
    RunsInline "vector_sum_of_squares" [(KVec, "x"); (KScal, "ssq_init")] /\
  call_without 2 case_env_default "vector_two_norm" [(KVec, "x"); (KScal, "init")] =
    RunsCustom (PUser 0) "vector_two_norm" [(KVec, "x"); (KScal, "init")] /\
  follow 2 case_env_default (call_with 2 case_env_default Lvalue (PStd 0) "triangular_matrix_matrix_solve"
    [(KMat, "A"); (KTri, "t"); (KDiag, "d"); (KSide, "right_side_t"); (KMat, "B"); (KMat, "X")]) =
    RunsCustom (PUser 0) "triangular_matrix_matrix_right_solve"
      [(KMat, "A"); (KTri, "t"); (KDiag, "d"); (KMat, "B"); (KMat, "X")].
Proof.
  split; [exists [KVec; KScal]; split; [vm_compute; tauto | reflexivity]|].
  split; [intros H; vm_compute in H; intuition discriminate|].
  vm_compute. repeat split.
Qed.
