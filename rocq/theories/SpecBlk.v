(** Specification vocabulary for computing by blocks (C98): parts of vectors and matrices, as submdspan gives them. *)
From Coq Require Import List Arith.
From Verif Require Import Mem Scalar View Spec.
Set Implicit Arguments.

(** Elements [lo], ..., [lo + n - 1] of a vector. *)
Definition sub_v {O : ops} (x : vec O) (lo n : nat) : vec O := Vec (vbase x) n (fun i => voff x (lo + i)) (vacc x).
(** Rows [r], ..., [r + n - 1] and columns [c], ..., [c + k - 1] of a matrix. *)
Definition sub_m {O : ops} (A : mat O) (r n c k : nat) : mat O :=
  Mat (mbase A) n k (LUser (fun i j => off (mlay A) (ext0 A) (ext1 A) (r + i) (c + j))) (macc A).
(** Adding the product with [neg * a] is subtracting the product with [a]. *)
Definition negates {O : ops} (neg : O) : Prop := forall b a x : O, (b + (neg * a) * x = b - a * x)%sc.
