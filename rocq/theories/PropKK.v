(** Properties C45-C51, C55 and C56: the Kokkos back end under every schedule. *)
From Coq Require Import List Arith ZArith Lia Bool Relations.
From Verif Require Import Mem Scalar View Spec Idx Wp Sums Blas1 Blas2 Blas3 PfBlas3 Par PfPar KK SpecK PfKK PfKK2 PfKK3 PfKK4 PfKK5 PfKK6 Inst.
Import ListNotations.
Local Open Scope nat_scope.
Local Open Scope sc_scope.

Ltac elems2 H1 := eapply mat_holds_on_ext; [|exact H1];
  let i := fresh in let j := fresh in let Hi := fresh in let Hj := fresh in let Ht := fresh in
  intros i j Hi Hj Ht; destruct i as [|[|i]]; [| |simpl in Hi; lia];
  (destruct j as [|[|j]]; [| |simpl in Hj; lia]); simpl in Ht; try reflexivity; lia.
Ltac elems1 H1 := eapply vec_holds_ext; [|exact H1];
  let i := fresh in let Hi := fresh in
  intros i Hi; destruct i as [|[|i]]; [| |simpl in Hi; lia]; reflexivity.
(** Side conditions on concrete data. *)
Ltac conc := first [ exact zring | exact (ring_add zring) | exact gring | exact (ring_add gring) | exact gcc
  | solve [left; exact (ring_add zring)] | solve [left; exact (ring_add gring)]
  | match goal with |- plain_v _ => split; [reflexivity|intros; reflexivity] end
  | match goal with |- plain_m _ => split; [reflexivity|auto] end
  | match goal with |- disjoint_or_aligned_v _ _ => first [solve [right; unfold aligned_v, aligned_m; intros; reflexivity] | left] end
  | match goal with |- disjoint_or_aligned_m _ _ => first [solve [right; unfold aligned_v, aligned_m; intros; reflexivity] | left] end
  | idtac ]; try concrete.

(** The sequential run left another value in cell [b]. *)
Ltac differ Hr Hs Hv E b :=
  match type of Hr with run ?q ?m = Ok _ ?m2 =>
    let K := fresh in
    assert (K : match run q m with Ok _ mm => mm b | Err _ _ => None end = m2 b) by (rewrite Hr; reflexivity);
    let K2 := fresh in pose proof (eq_trans K (eq_trans (eq_sym (Hs b)) Hv)) as K2; vm_compute in K2; injection K2 as <-; vm_compute in E; discriminate E
  end.

(** * C45 *)
(** Each action runs exactly once from the point of view of its element: if run alone on the initial memory
    action (i,j) leaves v in C(i,j), then after every schedule C(i,j) holds that v.  [par_succeeds] also states
    that no schedule has a data race or an access outside allocated memory. *)
Theorem C45_matrix_traversal : forall (O : ops) (m : mem O) (C : mat O) Rin action g,
  mwritable C -> elementwise C all2 Rin action ->
  (forall i j, i < ext0 C -> j < ext1 C -> succeeds (action i j) m (fun _ f => f (maddr C i j) = Some (g i j))) ->
  par_succeeds (for_each_matrix_element C action) m (fun m' => mat_holds m' C g /\ changes_only m m' (mcells C)).
Proof. intros. eapply for_each_matrix_element_ok; eauto. Qed.
Print Assumptions C45_matrix_traversal.

Theorem C45_triangle_traversal : forall (O : ops) (m : mem O) (C : mat O) t Rin action g,
  ext0 C = ext1 C -> mwritable_on C (in_tri t) -> elementwise C (in_tri t) Rin action ->
  (forall i j, i < ext0 C -> j < ext1 C -> in_tri t i j ->
     succeeds (action i j) m (fun _ f => f (maddr C i j) = Some (g i j))) ->
  par_succeeds (for_each_triangle_matrix_element C t action) m (fun m' =>
    mat_holds_on m' C (in_tri t) g /\ changes_only m m' (mcells_on C (in_tri t))).
Proof. intros. eapply for_each_triangle_ok; eauto. Qed.
Print Assumptions C45_triangle_traversal.

(** A successful parallel algorithm does complete, and every complete execution satisfies the postcondition. *)
Theorem C45_completes : forall (T : Type) (p : par T) m (Q : mem T -> Prop), par_succeeds p m Q ->
  (exists m', par_result p m m') /\ forall m', par_result p m m' -> Q m'.
Proof. exact par_completes. Qed.
Print Assumptions C45_completes.

(** No region runs for ever, whatever the tasks and the schedule. *)
Theorem C45_no_infinite_schedule : forall T (s : nat -> list (prog T unit) * mem T),
  ~ forall n, region_step (s n) (s (S n)).
Proof. exact no_infinite_schedule. Qed.
Print Assumptions C45_no_infinite_schedule.

(** Adding 10*(i+1) + j to each element of the lower triangle; the cell of (0,1) is not allocated. *)
Example C45_case :
  let m : mem zops := fun a => if a =? 1 then None else mem_of [1;0;3;4]%Z a in
  let C : mat zops := row_major 0 2 2 in
  let action i j := macc_add C i j (10 * (Z.of_nat i + 1) + Z.of_nat j)%Z in
  par_succeeds (for_each_triangle_matrix_element C Lower action) m (fun m' =>
    mat_holds_on m' C (in_tri Lower) (zm [[11;0];[23;25]]%Z) /\ changes_only m m' (mcells_on C (in_tri Lower))).
Proof.
  intros. apply C45_triangle_traversal with (Rin := fun _ _ _ => False).
  - reflexivity.
  - conc.
  - intros i j Hi Hj Ht. split; [|intros; tauto].
    unfold action, macc_add. tch.
  - intros i j Hi Hj Ht. destruct i as [|[|i]]; [| |simpl in Hi; lia]; (destruct j as [|[|j]]; [| |simpl in Hj; lia]);
      simpl in Ht; try lia; eexists _, _; split; reflexivity.
Qed.
(** A region in which two tasks update the same cell is rejected: some schedule has a race. *)
Example C45_race_case :
  let C : mat zops := row_major 0 1 1 in
  ~ par_succeeds (PFor 2 (fun _ => macc_add C 0 0 (5%Z : zops)) PDone) (mem_of [1]%Z) (fun _ => True).
Proof.
  intros C H. unfold par_succeeds in H.
  destruct (H [Put 0 (6%Z) (Ret tt); Get 0 (fun v => Put 0 (v + 5)%Z (Ret tt))] (mem_of [1]%Z)) as (Hr & _ & _).
  { unfold reachable. econstructor; [|constructor]. apply (@region_task Z [] (Get 0 (fun v => Put 0 (v + 5)%Z (Ret tt))) [_]). exact (@step_get Z 0 (fun v => Put 0 (v + 5)%Z (Ret tt)) _ 1%Z eq_refl). }
  apply Hr. exists [], (Put 0 6%Z (Ret tt)), [], (Get 0 (fun v => Put 0 (v + 5)%Z (Ret tt))), [], 0. split; [reflexivity|].
  left. simpl. auto.
Qed.

(** * C46 *)
Theorem C46_kk_ger : forall (O : ops) (m : mem O) x y A a f g,
  vext x = ext0 A -> vext y = ext1 A -> plain_v x -> plain_v y -> plain_m A ->
  mat_holds m A a -> vec_holds m x f -> vec_holds m y g -> mwritable A ->
  disjoint (vcells x) (mcells A) -> disjoint (vcells y) (mcells A) ->
  par_succeeds (kk_matrix_rank_1_update x y A) m (fun m' =>
    mat_holds m' A
      (fun i j => a i j + f i * g j) /\
    changes_only m m' (mcells A)).
Proof. exact (@kk_ger_ok). Qed.
Print Assumptions C46_kk_ger.

Theorem C46_kk_gerc : forall (O : ops) (m : mem O) x y A a f g,
  vext x = ext0 A -> vext y = ext1 A -> plain_v x -> plain_v y -> plain_m A ->
  mat_holds m A a -> vec_holds m x f -> vec_holds m y g -> mwritable A ->
  disjoint (vcells x) (mcells A) -> disjoint (vcells y) (mcells A) ->
  par_succeeds (kk_matrix_rank_1_update_conj x y A) m (fun m' =>
    mat_holds m' A
      (fun i j => a i j + f i * conj (g j)) /\
    changes_only m m' (mcells A)).
Proof. exact (@kk_gerc_ok). Qed.
Print Assumptions C46_kk_gerc.

Theorem C46_kk_syr : forall (O : ops) (m : mem O) x A t a f,
  ext0 A = ext1 A -> vext x = ext0 A -> plain_v x -> plain_m A ->
  mat_holds_on m A (in_tri t) a -> vec_holds m x f -> mwritable_on A (in_tri t) ->
  disjoint (vcells x) (mcells_on A (in_tri t)) ->
  par_succeeds (kk_symmetric_matrix_rank_1_update x A t) m (fun m' =>
    mat_holds_on m' A (in_tri t)
      (fun i j => a i j + f i * f j) /\
    changes_only m m' (mcells_on A (in_tri t))).
Proof. exact (@kk_syr_ok). Qed.
Print Assumptions C46_kk_syr.

Theorem C46_kk_syr2 : forall (O : ops) (m : mem O) x y A t a f g,
  ext0 A = ext1 A -> vext x = ext0 A -> vext y = ext0 A -> plain_v x -> plain_v y -> plain_m A ->
  mat_holds_on m A (in_tri t) a -> vec_holds m x f -> vec_holds m y g -> mwritable_on A (in_tri t) ->
  disjoint (vcells x) (mcells_on A (in_tri t)) -> disjoint (vcells y) (mcells_on A (in_tri t)) ->
  par_succeeds (kk_symmetric_matrix_rank_2_update x y A t) m (fun m' =>
    mat_holds_on m' A (in_tri t)
      (fun i j => a i j + (f i * g j + g i * f j)) /\
    changes_only m m' (mcells_on A (in_tri t))).
Proof. exact (@kk_syr2_ok). Qed.
Print Assumptions C46_kk_syr2.

Theorem C46_kk_syrk : forall (O : ops) (m : mem O) alpha A C t a c,
  ext0 C = ext1 C -> ext0 A = ext0 C -> plain_m A -> plain_m C ->
  mat_holds m A a -> mat_holds_on m C (in_tri t) c -> mwritable_on C (in_tri t) ->
  disjoint (mcells A) (mcells_on C (in_tri t)) ->
  par_succeeds (kk_symmetric_matrix_rank_k_update alpha A C t) m (fun m' =>
    mat_holds_on m' C (in_tri t)
      (fun i j => sum_from (c i j) 0 (ext1 A) (fun k => alpha * a i k * a j k)) /\
    changes_only m m' (mcells_on C (in_tri t))).
Proof. exact (@kk_syrk_ok). Qed.
Print Assumptions C46_kk_syrk.

Theorem C46_kk_syr2k : forall (O : ops) (m : mem O) A B C t a b c,
  ext0 C = ext1 C -> ext0 A = ext0 C -> ext0 B = ext0 C -> ext1 B = ext1 A -> plain_m A -> plain_m B -> plain_m C ->
  mat_holds m A a -> mat_holds m B b -> mat_holds_on m C (in_tri t) c -> mwritable_on C (in_tri t) ->
  disjoint (mcells A) (mcells_on C (in_tri t)) -> disjoint (mcells B) (mcells_on C (in_tri t)) ->
  par_succeeds (kk_symmetric_matrix_rank_2k_update A B C t) m (fun m' =>
    mat_holds_on m' C (in_tri t)
      (fun i j => sum_from (c i j) 0 (ext1 A) (fun k => a i k * b j k + b i k * a j k)) /\
    changes_only m m' (mcells_on C (in_tri t))).
Proof. exact (@kk_syr2k_ok). Qed.
Print Assumptions C46_kk_syr2k.

Theorem C46_kk_ger_same_as_inline : forall (O : ops) (m : mem O) x y A a f g,
  vext x = ext0 A -> vext y = ext1 A -> plain_v x -> plain_v y -> plain_m A ->
  mat_holds m A a -> vec_holds m x f -> vec_holds m y g -> mwritable A ->
  disjoint (vcells x) (mcells A) -> disjoint (vcells y) (mcells A) ->
  par_same_as (kk_matrix_rank_1_update x y A) (matrix_rank_1_update x y A) m.
Proof. exact (@kk_ger_same). Qed.
Print Assumptions C46_kk_ger_same_as_inline.

Theorem C46_kk_gerc_same_as_inline : forall (O : ops) (m : mem O) x y A a f g fix_nc nc,
  (forall v : O, conj (conj v) = v) -> (nc = true -> forall v : O, conj v = v) ->
  vext x = ext0 A -> vext y = ext1 A -> plain_v x -> plain_v y -> plain_m A ->
  mat_holds m A a -> vec_holds m x f -> vec_holds m y g -> mwritable A ->
  disjoint (vcells x) (mcells A) -> disjoint (vcells y) (mcells A) ->
  par_same_as (kk_matrix_rank_1_update_conj x y A) (matrix_rank_1_update_c fix_nc nc x y A) m.
Proof. exact (@kk_gerc_same). Qed.
Print Assumptions C46_kk_gerc_same_as_inline.

Theorem C46_kk_syr_same_as_inline : forall (O : ops) (m : mem O) x A t a f,
  ext0 A = ext1 A -> vext x = ext0 A -> plain_v x -> plain_m A ->
  mat_holds_on m A (in_tri t) a -> vec_holds m x f -> mwritable_on A (in_tri t) ->
  disjoint (vcells x) (mcells_on A (in_tri t)) ->
  par_same_as (kk_symmetric_matrix_rank_1_update x A t) (symmetric_matrix_rank_1_update x A t) m.
Proof. exact (@kk_syr_same). Qed.
Print Assumptions C46_kk_syr_same_as_inline.

Theorem C46_kk_syr2_same_as_inline : forall (O : ops) (m : mem O) x y A t a f g,
  ext0 A = ext1 A -> vext x = ext0 A -> vext y = ext0 A -> plain_v x -> plain_v y -> plain_m A ->
  mat_holds_on m A (in_tri t) a -> vec_holds m x f -> vec_holds m y g -> mwritable_on A (in_tri t) ->
  disjoint (vcells x) (mcells_on A (in_tri t)) -> disjoint (vcells y) (mcells_on A (in_tri t)) ->
  par_same_as (kk_symmetric_matrix_rank_2_update x y A t) (symmetric_matrix_rank_2_update x y A t) m.
Proof. exact (@kk_syr2_same). Qed.
Print Assumptions C46_kk_syr2_same_as_inline.

Theorem C46_kk_syrk_same_as_inline : forall (O : ops) (m : mem O) alpha A C t a c,
  ext0 C = ext1 C -> ext0 A = ext0 C -> plain_m A -> plain_m C ->
  mat_holds m A a -> mat_holds_on m C (in_tri t) c -> mwritable_on C (in_tri t) ->
  disjoint (mcells A) (mcells_on C (in_tri t)) ->
  par_same_as (kk_symmetric_matrix_rank_k_update alpha A C t) (symmetric_matrix_rank_k_update_alpha alpha A C t) m.
Proof. exact (@kk_syrk_same). Qed.
Print Assumptions C46_kk_syrk_same_as_inline.

Theorem C46_kk_syr2k_same_as_inline : forall (O : ops) (m : mem O) A B C t a b c,
  ext0 C = ext1 C -> ext0 A = ext0 C -> ext0 B = ext0 C -> ext1 B = ext1 A -> plain_m A -> plain_m B -> plain_m C ->
  mat_holds m A a -> mat_holds m B b -> mat_holds_on m C (in_tri t) c -> mwritable_on C (in_tri t) ->
  disjoint (mcells A) (mcells_on C (in_tri t)) -> disjoint (mcells B) (mcells_on C (in_tri t)) ->
  par_same_as (kk_symmetric_matrix_rank_2k_update A B C t) (symmetric_matrix_rank_2k_update A B C t) m.
Proof. exact (@kk_syr2k_same). Qed.
Print Assumptions C46_kk_syr2k_same_as_inline.

Theorem C46_kk_ger_throws : forall (O : ops) (x y : vec O) A,
  par_throws (kk_matrix_rank_1_update x y A) <-> vext x <> ext0 A \/ vext y <> ext1 A.
Proof. exact (@kk_ger_throws). Qed.
Print Assumptions C46_kk_ger_throws.

Theorem C46_kk_gerc_throws : forall (O : ops) (x y : vec O) A,
  par_throws (kk_matrix_rank_1_update_conj x y A) <-> vext x <> ext0 A \/ vext y <> ext1 A.
Proof. exact (@kk_gerc_throws). Qed.
Print Assumptions C46_kk_gerc_throws.

Theorem C46_kk_syr_throws : forall (O : ops) (x : vec O) A t,
  par_throws (kk_symmetric_matrix_rank_1_update x A t) <-> ext0 A <> ext1 A \/ vext x <> ext0 A.
Proof. exact (@kk_syr_throws). Qed.
Print Assumptions C46_kk_syr_throws.

Theorem C46_kk_syr2_throws : forall (O : ops) (x y : vec O) A t,
  par_throws (kk_symmetric_matrix_rank_2_update x y A t) <-> ext0 A <> ext1 A \/ vext x <> ext0 A \/ vext y <> ext0 A.
Proof. exact (@kk_syr2_throws). Qed.
Print Assumptions C46_kk_syr2_throws.

Theorem C46_kk_syrk_throws : forall (O : ops) (alpha : O) A C t,
  par_throws (kk_symmetric_matrix_rank_k_update alpha A C t) <-> ext0 A <> ext0 C \/ ext0 C <> ext1 C.
Proof. exact (@kk_syrk_throws). Qed.
Print Assumptions C46_kk_syrk_throws.

Theorem C46_kk_syr2k_throws : forall (O : ops) (A B C : mat O) t,
  par_throws (kk_symmetric_matrix_rank_2k_update A B C t) <-> ext0 A <> ext0 C \/ ext0 B <> ext0 C \/ ext0 C <> ext1 C \/ ext1 A <> ext1 B.
Proof. exact (@kk_syr2k_throws). Qed.
Print Assumptions C46_kk_syr2k_throws.

(** 2x2 rank-1 update: every schedule gives A + x y^T, which is what the inline algorithm gives. *)
Example C46_case :
  let m : mem zops := mem_of [1;2;3;4; 5;6; 7;8]%Z in
  let A := row_major 0 2 2 in let x := vec_at 4 2 in let y := vec_at 6 2 in
  par_succeeds (kk_matrix_rank_1_update x y A) m (fun m' =>
    mat_holds m' A (zm [[36;42];[45;52]]%Z) /\ changes_only m m' (mcells A)) /\
  par_same_as (kk_matrix_rank_1_update x y A) (matrix_rank_1_update x y A) m.
Proof.
  intros. split.
  - eapply par_mono; [apply C46_kk_ger with (a := zm [[1;2];[3;4]]%Z) (f := zv [5;6]%Z) (g := zv [7;8]%Z); conc|].
    intros m' [H1 H2]; split; auto. elems2 H1.
  - apply C46_kk_ger_same_as_inline with (a := zm [[1;2];[3;4]]%Z) (f := zv [5;6]%Z) (g := zv [7;8]%Z); conc.
Qed.
Example C46_conj_case :
  let m : mem gops := mem_of [(1,0); (1,2); (3,4)]%Z in
  let A := row_major 0 1 1 in let x := vec_at 1 1 in let y := vec_at 2 1 in
  par_succeeds (kk_matrix_rank_1_update_conj x y A) m (fun m' => m' 0 = Some (12,2)%Z).
Proof.
  intros. eapply par_mono; [apply C46_kk_gerc with (a := gm [[(1,0)]]%Z) (f := gv [(1,2)]%Z) (g := gv [(3,4)]%Z); conc|].
  intros m' [H1 _]. destruct (H1 0 0) as (v & Hv & E); [simpl; lia..|exact I|].
  change (m' 0 = Some v) in Hv. rewrite Hv. f_equal. exact E.
Qed.
Example C46_gerc_inline_case :
  let m : mem gops := mem_of [(1,0); (1,2); (3,4)]%Z in
  let A := row_major 0 1 1 in let x := vec_at 1 1 in let y := vec_at 2 1 in
  par_same_as (kk_matrix_rank_1_update_conj x y A) (matrix_rank_1_update_c true false x y A) m.
Proof.
  intros. apply C46_kk_gerc_same_as_inline with (a := gm [[(1,0)]]%Z) (f := gv [(1,2)]%Z) (g := gv [(3,4)]%Z);
  try exact gcc; try discriminate; conc.
Qed.
(** Symmetric updates of the lower triangle of a column-major matrix whose cell of (0,1) is not allocated. *)
Example C46_syr_case :
  let m : mem zops := fun a => if a =? 2 then None else mem_of [1;2;0;4; 5;6; 7;8]%Z a in
  let A := col_major 0 2 2 in let x := vec_at 4 2 in let y := vec_at 6 2 in
  par_succeeds (kk_symmetric_matrix_rank_1_update x A Lower) m (fun m' =>
    mat_holds_on m' A (in_tri Lower) (zm [[26;0];[32;40]]%Z) /\ changes_only m m' (mcells_on A (in_tri Lower))) /\
  par_same_as (kk_symmetric_matrix_rank_1_update x A Lower) (symmetric_matrix_rank_1_update x A Lower) m /\
  par_succeeds (kk_symmetric_matrix_rank_2_update x y A Lower) m (fun m' =>
    mat_holds_on m' A (in_tri Lower) (zm [[71;0];[84;100]]%Z) /\ changes_only m m' (mcells_on A (in_tri Lower))) /\
  par_same_as (kk_symmetric_matrix_rank_2_update x y A Lower) (symmetric_matrix_rank_2_update x y A Lower) m.
Proof.
  intros. repeat apply Logic.conj.
  - eapply par_mono; [apply C46_kk_syr with (a := zm [[1;0];[2;4]]%Z) (f := zv [5;6]%Z); conc|].
    intros m' [H1 H2]; split; auto. elems2 H1.
  - apply C46_kk_syr_same_as_inline with (a := zm [[1;0];[2;4]]%Z) (f := zv [5;6]%Z); conc.
  - eapply par_mono; [apply C46_kk_syr2 with (a := zm [[1;0];[2;4]]%Z) (f := zv [5;6]%Z) (g := zv [7;8]%Z); conc|].
    intros m' [H1 H2]; split; auto. elems2 H1.
  - apply C46_kk_syr2_same_as_inline with (a := zm [[1;0];[2;4]]%Z) (f := zv [5;6]%Z) (g := zv [7;8]%Z); conc.
Qed.
Example C46_syrk_case :
  let m : mem zops := fun a => if a =? 2 then None else mem_of [1;2;0;4; 5;6; 7;8; 1;1; 2;3]%Z a in
  let C := col_major 0 2 2 in let A := row_major 4 2 2 in let B := row_major 8 2 2 in
  par_succeeds (kk_symmetric_matrix_rank_k_update (2%Z : zops) A C Lower) m (fun m' =>
    mat_holds_on m' C (in_tri Lower) (zm [[123;0];[168;230]]%Z) /\ changes_only m m' (mcells_on C (in_tri Lower))) /\
  par_same_as (kk_symmetric_matrix_rank_k_update (2%Z : zops) A C Lower) (symmetric_matrix_rank_k_update_alpha (2%Z : zops) A C Lower) m /\
  par_succeeds (kk_symmetric_matrix_rank_2k_update A B C Lower) m (fun m' =>
    mat_holds_on m' C (in_tri Lower) (zm [[23;0];[45;80]]%Z) /\ changes_only m m' (mcells_on C (in_tri Lower))) /\
  par_same_as (kk_symmetric_matrix_rank_2k_update A B C Lower) (symmetric_matrix_rank_2k_update A B C Lower) m.
Proof.
  intros. repeat apply Logic.conj.
  - eapply par_mono; [apply C46_kk_syrk with (a := zm [[5;6];[7;8]]%Z) (c := zm [[1;0];[2;4]]%Z); conc|].
    intros m' [H1 H2]; split; auto. elems2 H1.
  - apply C46_kk_syrk_same_as_inline with (a := zm [[5;6];[7;8]]%Z) (c := zm [[1;0];[2;4]]%Z); conc.
  - eapply par_mono; [apply C46_kk_syr2k with (a := zm [[5;6];[7;8]]%Z) (b := zm [[1;1];[2;3]]%Z) (c := zm [[1;0];[2;4]]%Z); conc|].
    intros m' [H1 H2]; split; auto. elems2 H1.
  - apply C46_kk_syr2k_same_as_inline with (a := zm [[5;6];[7;8]]%Z) (b := zm [[1;1];[2;3]]%Z) (c := zm [[1;0];[2;4]]%Z); conc.
Qed.
Example C46_throws_case :
  par_throws (kk_matrix_rank_1_update (vec_at 4 3) (vec_at 6 2) (@row_major zops 0 2 2)).
Proof. apply C46_kk_ger_throws. left. discriminate. Qed.

(** * C47 *)
(** Full statement: [kk_same_as_inline] without a hypothesis on the diagonal of A (or C).  It is false: the inline
    algorithms overwrite the diagonal with its real part, the Kokkos ones keep the imaginary part. *)
(** What the Kokkos algorithm computes, for every stored diagonal. *)
Theorem C47_kk_her_partial : forall (O : ops) (m : mem O) x A t a f,
  ext0 A = ext1 A -> vext x = ext0 A -> plain_v x -> plain_m A ->
  mat_holds_on m A (in_tri t) a -> vec_holds m x f -> mwritable_on A (in_tri t) ->
  disjoint (vcells x) (mcells_on A (in_tri t)) ->
  par_succeeds (kk_hermitian_matrix_rank_1_update x A t) m (fun m' =>
    mat_holds_on m' A (in_tri t)
      (fun i j => a i j + f i * conj (f j)) /\
    changes_only m m' (mcells_on A (in_tri t))).
Proof. exact (@kk_her_ok). Qed.
Print Assumptions C47_kk_her_partial.

Theorem C47_kk_her2_partial : forall (O : ops) (m : mem O) x y A t a f g,
  ext0 A = ext1 A -> vext x = ext0 A -> vext y = ext0 A -> plain_v x -> plain_v y -> plain_m A ->
  mat_holds_on m A (in_tri t) a -> vec_holds m x f -> vec_holds m y g -> mwritable_on A (in_tri t) ->
  disjoint (vcells x) (mcells_on A (in_tri t)) -> disjoint (vcells y) (mcells_on A (in_tri t)) ->
  par_succeeds (kk_hermitian_matrix_rank_2_update x y A t) m (fun m' =>
    mat_holds_on m' A (in_tri t)
      (fun i j => a i j + (f i * conj (g j) + g i * conj (f j))) /\
    changes_only m m' (mcells_on A (in_tri t))).
Proof. exact (@kk_her2_ok). Qed.
Print Assumptions C47_kk_her2_partial.

Theorem C47_kk_herk_partial : forall (O : ops) (m : mem O) alpha A C t a c,
  ext0 C = ext1 C -> ext0 A = ext0 C -> plain_m A -> plain_m C ->
  mat_holds m A a -> mat_holds_on m C (in_tri t) c -> mwritable_on C (in_tri t) ->
  disjoint (mcells A) (mcells_on C (in_tri t)) ->
  par_succeeds (kk_hermitian_matrix_rank_k_update alpha A C t) m (fun m' =>
    mat_holds_on m' C (in_tri t)
      (fun i j => sum_from (c i j) 0 (ext1 A) (fun k => alpha * a i k * conj (a j k))) /\
    changes_only m m' (mcells_on C (in_tri t))).
Proof. exact (@kk_herk_ok). Qed.
Print Assumptions C47_kk_herk_partial.

Theorem C47_kk_her2k_partial : forall (O : ops) (m : mem O) A B C t a b c,
  ext0 C = ext1 C -> ext0 A = ext0 C -> ext0 B = ext0 C -> ext1 B = ext1 A -> plain_m A -> plain_m B -> plain_m C ->
  mat_holds m A a -> mat_holds m B b -> mat_holds_on m C (in_tri t) c -> mwritable_on C (in_tri t) ->
  disjoint (mcells A) (mcells_on C (in_tri t)) -> disjoint (mcells B) (mcells_on C (in_tri t)) ->
  par_succeeds (kk_hermitian_matrix_rank_2k_update A B C t) m (fun m' =>
    mat_holds_on m' C (in_tri t)
      (fun i j => sum_from (c i j) 0 (ext1 A) (fun k => a i k * conj (b j k) + b i k * conj (a j k))) /\
    changes_only m m' (mcells_on C (in_tri t))).
Proof. exact (@kk_her2k_ok). Qed.
Print Assumptions C47_kk_her2k_partial.

(** Missing: stored diagonals with a nonzero imaginary part (see the refutations). *)
Theorem C47_kk_her_same_as_inline_partial : forall (O : ops) (m : mem O) x A t a f,
  (forall i, i < ext0 A -> re (a i i) = a i i) ->
  ext0 A = ext1 A -> vext x = ext0 A -> plain_v x -> plain_m A ->
  mat_holds_on m A (in_tri t) a -> vec_holds m x f -> mwritable_on A (in_tri t) ->
  disjoint (vcells x) (mcells_on A (in_tri t)) ->
  par_same_as (kk_hermitian_matrix_rank_1_update x A t) (hermitian_matrix_rank_1_update x A t) m.
Proof. exact (@kk_her_same_real). Qed.
Print Assumptions C47_kk_her_same_as_inline_partial.

Theorem C47_kk_her2_same_as_inline_partial : forall (O : ops) (m : mem O) x y A t a f g,
  (forall i, i < ext0 A -> re (a i i) = a i i) ->
  ext0 A = ext1 A -> vext x = ext0 A -> vext y = ext0 A -> plain_v x -> plain_v y -> plain_m A ->
  mat_holds_on m A (in_tri t) a -> vec_holds m x f -> vec_holds m y g -> mwritable_on A (in_tri t) ->
  disjoint (vcells x) (mcells_on A (in_tri t)) -> disjoint (vcells y) (mcells_on A (in_tri t)) ->
  par_same_as (kk_hermitian_matrix_rank_2_update x y A t) (hermitian_matrix_rank_2_update x y A t) m.
Proof. exact (@kk_her2_same_real). Qed.
Print Assumptions C47_kk_her2_same_as_inline_partial.

Theorem C47_kk_herk_same_as_inline_partial : forall (O : ops) (m : mem O) alpha A C t a c,
  (forall i, i < ext0 C -> re (c i i) = c i i) ->
  ext0 C = ext1 C -> ext0 A = ext0 C -> plain_m A -> plain_m C ->
  mat_holds m A a -> mat_holds_on m C (in_tri t) c -> mwritable_on C (in_tri t) ->
  disjoint (mcells A) (mcells_on C (in_tri t)) ->
  par_same_as (kk_hermitian_matrix_rank_k_update alpha A C t) (hermitian_matrix_rank_k_update_alpha alpha A C t) m.
Proof. exact (@kk_herk_same_real). Qed.
Print Assumptions C47_kk_herk_same_as_inline_partial.

Theorem C47_kk_her2k_same_as_inline_partial : forall (O : ops) (m : mem O) A B C t a b c,
  (forall i, i < ext0 C -> re (c i i) = c i i) ->
  ext0 C = ext1 C -> ext0 A = ext0 C -> ext0 B = ext0 C -> ext1 B = ext1 A -> plain_m A -> plain_m B -> plain_m C ->
  mat_holds m A a -> mat_holds m B b -> mat_holds_on m C (in_tri t) c -> mwritable_on C (in_tri t) ->
  disjoint (mcells A) (mcells_on C (in_tri t)) -> disjoint (mcells B) (mcells_on C (in_tri t)) ->
  par_same_as (kk_hermitian_matrix_rank_2k_update A B C t) (hermitian_matrix_rank_2k_update A B C t) m.
Proof. exact (@kk_her2k_same_real). Qed.
Print Assumptions C47_kk_her2k_same_as_inline_partial.

Theorem C47_kk_her_throws : forall (O : ops) (x : vec O) A t,
  par_throws (kk_hermitian_matrix_rank_1_update x A t) <-> ext0 A <> ext1 A \/ vext x <> ext0 A.
Proof. exact (@kk_her_throws). Qed.
Print Assumptions C47_kk_her_throws.

Theorem C47_kk_her2_throws : forall (O : ops) (x y : vec O) A t,
  par_throws (kk_hermitian_matrix_rank_2_update x y A t) <-> ext0 A <> ext1 A \/ vext x <> ext0 A \/ vext y <> ext0 A.
Proof. exact (@kk_her2_throws). Qed.
Print Assumptions C47_kk_her2_throws.

Theorem C47_kk_herk_throws : forall (O : ops) (alpha : O) A C t,
  par_throws (kk_hermitian_matrix_rank_k_update alpha A C t) <-> ext0 A <> ext0 C \/ ext0 C <> ext1 C.
Proof. exact (@kk_herk_throws). Qed.
Print Assumptions C47_kk_herk_throws.

Theorem C47_kk_her2k_throws : forall (O : ops) (A B C : mat O) t,
  par_throws (kk_hermitian_matrix_rank_2k_update A B C t) <-> ext0 A <> ext0 C \/ ext0 B <> ext0 C \/ ext0 C <> ext1 C \/ ext1 A <> ext1 B.
Proof. exact (@kk_her2k_throws). Qed.
Print Assumptions C47_kk_her2k_throws.

(** 1x1: A = i (imaginary unit), x = 0.  The inline algorithm leaves 0 (the real part), the Kokkos one leaves i. *)
Theorem C47_hermitian_rank_1_refuted : exists (m : mem gops) x A t a f,
  ext0 A = ext1 A /\ vext x = ext0 A /\ plain_v x /\ plain_m A /\
  mat_holds_on m A (in_tri t) a /\ vec_holds m x f /\ mwritable_on A (in_tri t) /\
  disjoint (vcells x) (mcells_on A (in_tri t)) /\
  ~ par_same_as (kk_hermitian_matrix_rank_1_update x A t) (hermitian_matrix_rank_1_update x A t) m.
Proof.
  exists (mem_of [(0,1); (0,0)]%Z), (vec_at 1 1), (row_major 0 1 1), Lower, (gm [[(0,1)]]%Z), (gv [(0,0)]%Z).
  do 8 (split; [conc|]).
  eapply par_not; [apply C47_kk_her_partial with (a := gm [[(0,1)]]%Z) (f := gv [(0,0)]%Z); conc|].
  intros m' [H1 _] (u & m2 & Hr & Hs). destruct (H1 0 0) as (v & Hv & E); [simpl; lia..|].
  change (m' 0 = Some v) in Hv. differ Hr Hs Hv E 0.
Qed.
Print Assumptions C47_hermitian_rank_1_refuted.
Theorem C47_hermitian_rank_2_refuted : exists (m : mem gops) x y A t a f g,
  ext0 A = ext1 A /\ vext x = ext0 A /\ vext y = ext0 A /\ plain_v x /\ plain_v y /\ plain_m A /\
  mat_holds_on m A (in_tri t) a /\ vec_holds m x f /\ vec_holds m y g /\ mwritable_on A (in_tri t) /\
  disjoint (vcells x) (mcells_on A (in_tri t)) /\ disjoint (vcells y) (mcells_on A (in_tri t)) /\
  ~ par_same_as (kk_hermitian_matrix_rank_2_update x y A t) (hermitian_matrix_rank_2_update x y A t) m.
Proof.
  exists (mem_of [(0,1); (0,0); (0,0)]%Z), (vec_at 1 1), (vec_at 2 1), (row_major 0 1 1), Lower, (gm [[(0,1)]]%Z),
    (gv [(0,0)]%Z), (gv [(0,0)]%Z).
  do 12 (split; [conc|]).
  eapply par_not; [apply C47_kk_her2_partial with (a := gm [[(0,1)]]%Z) (f := gv [(0,0)]%Z) (g := gv [(0,0)]%Z); conc|].
  intros m' [H1 _] (u & m2 & Hr & Hs). destruct (H1 0 0) as (v & Hv & E); [simpl; lia..|].
  change (m' 0 = Some v) in Hv. differ Hr Hs Hv E 0.
Qed.
Print Assumptions C47_hermitian_rank_2_refuted.
Theorem C47_hermitian_rank_k_refuted : exists (m : mem gops) alpha A C t a c,
  ext0 C = ext1 C /\ ext0 A = ext0 C /\ plain_m A /\ plain_m C /\
  mat_holds m A a /\ mat_holds_on m C (in_tri t) c /\ mwritable_on C (in_tri t) /\
  disjoint (mcells A) (mcells_on C (in_tri t)) /\
  ~ par_same_as (kk_hermitian_matrix_rank_k_update alpha A C t) (hermitian_matrix_rank_k_update_alpha alpha A C t) m.
Proof.
  exists (mem_of [(0,1); (1,0)]%Z), (1,0)%Z, (row_major 1 1 1), (row_major 0 1 1), Lower, (gm [[(1,0)]]%Z), (gm [[(0,1)]]%Z).
  do 8 (split; [conc|]).
  eapply par_not; [apply C47_kk_herk_partial with (a := gm [[(1,0)]]%Z) (c := gm [[(0,1)]]%Z); conc|].
  intros m' [H1 _] (u & m2 & Hr & Hs). destruct (H1 0 0) as (v & Hv & E); [simpl; lia..|].
  change (m' 0 = Some v) in Hv. differ Hr Hs Hv E 0.
Qed.
Print Assumptions C47_hermitian_rank_k_refuted.
Theorem C47_hermitian_rank_2k_refuted : exists (m : mem gops) A B C t a b c,
  ext0 C = ext1 C /\ ext0 A = ext0 C /\ ext0 B = ext0 C /\ ext1 B = ext1 A /\ plain_m A /\ plain_m B /\ plain_m C /\
  mat_holds m A a /\ mat_holds m B b /\ mat_holds_on m C (in_tri t) c /\ mwritable_on C (in_tri t) /\
  disjoint (mcells A) (mcells_on C (in_tri t)) /\ disjoint (mcells B) (mcells_on C (in_tri t)) /\
  ~ par_same_as (kk_hermitian_matrix_rank_2k_update A B C t) (hermitian_matrix_rank_2k_update A B C t) m.
Proof.
  exists (mem_of [(0,1); (1,0); (1,0)]%Z), (row_major 1 1 1), (row_major 2 1 1), (row_major 0 1 1), Lower,
    (gm [[(1,0)]]%Z), (gm [[(1,0)]]%Z), (gm [[(0,1)]]%Z).
  do 13 (split; [conc|]).
  eapply par_not; [apply C47_kk_her2k_partial with (a := gm [[(1,0)]]%Z) (b := gm [[(1,0)]]%Z) (c := gm [[(0,1)]]%Z); conc|].
  intros m' [H1 _] (u & m2 & Hr & Hs). destruct (H1 0 0) as (v & Hv & E); [simpl; lia..|].
  change (m' 0 = Some v) in Hv. differ Hr Hs Hv E 0.
Qed.
Print Assumptions C47_hermitian_rank_2k_refuted.
(** With a real diagonal both agree: 2x2, upper triangle. *)
Example C47_case :
  let m : mem gops := mem_of [(1,0);(2,3);(9,9);(4,0); (1,1);(0,2); (1,0);(0,1)]%Z in
  let A := row_major 0 2 2 in let x := vec_at 4 2 in let y := vec_at 6 2 in
  par_same_as (kk_hermitian_matrix_rank_1_update x A Upper) (hermitian_matrix_rank_1_update x A Upper) m /\
  par_same_as (kk_hermitian_matrix_rank_2_update x y A Upper) (hermitian_matrix_rank_2_update x y A Upper) m /\
  par_succeeds (kk_hermitian_matrix_rank_1_update x A Upper) m (fun m' =>
    mat_holds_on m' A (in_tri Upper) (gm [[(3,0);(4,1)];[(9,9);(8,0)]]%Z) /\ changes_only m m' (mcells_on A (in_tri Upper))).
Proof.
  intros. repeat apply Logic.conj.
  - apply C47_kk_her_same_as_inline_partial with (a := gm [[(1,0);(2,3)];[(9,9);(4,0)]]%Z) (f := gv [(1,1);(0,2)]%Z); conc.
    intros [|[|i]] Hi; [reflexivity..|simpl in Hi; lia].
  - apply C47_kk_her2_same_as_inline_partial with (a := gm [[(1,0);(2,3)];[(9,9);(4,0)]]%Z) (f := gv [(1,1);(0,2)]%Z)
      (g := gv [(1,0);(0,1)]%Z); conc.
    intros [|[|i]] Hi; [reflexivity..|simpl in Hi; lia].
  - eapply par_mono; [apply C47_kk_her_partial with (a := gm [[(1,0);(2,3)];[(9,9);(4,0)]]%Z) (f := gv [(1,1);(0,2)]%Z); conc|].
    intros m' [H1 H2]; split; auto. elems2 H1.
Qed.
Example C47_rank_k_case :
  let m : mem gops := mem_of [(1,0);(2,3);(9,9);(4,0); (1,1);(0,2); (1,0);(0,1)]%Z in
  let C := row_major 0 2 2 in let A := row_major 4 2 1 in let B := row_major 6 2 1 in
  par_same_as (kk_hermitian_matrix_rank_k_update ((2,0)%Z : gops) A C Upper)
    (hermitian_matrix_rank_k_update_alpha ((2,0)%Z : gops) A C Upper) m /\
  par_same_as (kk_hermitian_matrix_rank_2k_update A B C Upper) (hermitian_matrix_rank_2k_update A B C Upper) m.
Proof.
  intros. split.
  - apply C47_kk_herk_same_as_inline_partial with (c := gm [[(1,0);(2,3)];[(9,9);(4,0)]]%Z) (a := gm [[(1,1)];[(0,2)]]%Z); conc.
    intros [|[|i]] Hi; [reflexivity..|simpl in Hi; lia].
  - apply C47_kk_her2k_same_as_inline_partial with (c := gm [[(1,0);(2,3)];[(9,9);(4,0)]]%Z) (a := gm [[(1,1)];[(0,2)]]%Z)
      (b := gm [[(1,0)];[(0,1)]]%Z); conc.
    intros [|[|i]] Hi; [reflexivity..|simpl in Hi; lia].
Qed.

(** * C48 *)
(** Full statement: z = y + A x, as C23 states for the inline algorithm.  It is false for every A with more than one
    column (y is added once per column) and for A without columns (y is not added at all). *)
(** What is computed instead: the number of columns times y(i), plus (A x)(i). *)
Theorem C48_kk_gemv_updating_value_partial : forall (O : ops) (m : mem O) A x y z a f g,
  add_laws O ->
  vext x = ext1 A -> vext y = ext0 A -> vext z = ext0 A -> plain_m A -> plain_v x -> plain_v y -> plain_v z ->
  mat_holds m A a -> vec_holds m x f -> vec_holds m y g -> allocated m (vcells z) ->
  disjoint (mcells A) (vcells z) -> disjoint (vcells x) (vcells z) -> disjoint_or_aligned_v y z ->
  par_succeeds (kk_matrix_vector_product_upd A x y z) m (fun m' =>
    vec_holds m' z (fun i => bigsum (ext1 A) (fun _ => g i) + bigsum (ext1 A) (fun j => a i j * f j)) /\
    changes_only m m' (vcells z)).
Proof. exact (@kk_gemv_upd_value). Qed.
Print Assumptions C48_kk_gemv_updating_value_partial.

(** It agrees with the inline algorithm only when A has one column, or y is zero, or A has no rows. *)
Theorem C48_kk_gemv_updating_same_as_inline_partial : forall (O : ops) (m : mem O) A x y z a f g,
  add_laws O -> ext1 A = 1 \/ (forall i, i < ext0 A -> g i = zero) /\ 0 < ext1 A \/ ext0 A = 0 ->
  vext x = ext1 A -> vext y = ext0 A -> vext z = ext0 A -> plain_m A -> plain_v x -> plain_v y -> plain_v z ->
  mat_holds m A a -> vec_holds m x f -> vec_holds m y g -> allocated m (vcells z) ->
  disjoint (mcells A) (vcells z) -> disjoint (vcells x) (vcells z) -> disjoint_or_aligned_v y z ->
  par_same_as (kk_matrix_vector_product_upd A x y z) (matrix_vector_product_upd A x y z) m.
Proof. exact (@kk_gemv_upd_one_column). Qed.
Print Assumptions C48_kk_gemv_updating_same_as_inline_partial.

Theorem C48_kk_gemv_updating_throws : forall (O : ops) A (x y z : vec O),
  par_throws (kk_matrix_vector_product_upd A x y z) <-> ext1 A <> vext x \/ ext0 A <> vext y \/ ext0 A <> vext z.
Proof. exact (@kk_gemv_upd_throws). Qed.
Print Assumptions C48_kk_gemv_updating_throws.

Theorem C48_kk_gemv_updating_refuted : exists (m : mem zops) A x y z a f g,
  vext x = ext1 A /\ vext y = ext0 A /\ vext z = ext0 A /\ plain_m A /\ plain_v x /\ plain_v y /\ plain_v z /\
  mat_holds m A a /\ vec_holds m x f /\ vec_holds m y g /\ allocated m (vcells z) /\
  disjoint (mcells A) (vcells z) /\ disjoint (vcells x) (vcells z) /\ disjoint (vcells y) (vcells z) /\
  ~ par_succeeds (kk_matrix_vector_product_upd A x y z) m (fun m' =>
      vec_holds m' z (fun i => sum_from (g i) 0 (ext1 A) (fun j => a i j * f j))).
Proof.
  exists (mem_of [1;2; 3;4; 100; 0]%Z), (row_major 0 1 2), (vec_at 2 2), (vec_at 4 1), (vec_at 5 1),
    (zm [[1;2]]%Z), (zv [3;4]%Z), (zv [100]%Z).
  do 14 (split; [conc|]).
  eapply par_not; [apply C48_kk_gemv_updating_value_partial with (a := zm [[1;2]]%Z) (f := zv [3;4]%Z) (g := zv [100]%Z); conc|].
  intros m' [H1 _] H2. destruct (H1 0) as (v & Hv & E); [simpl; lia|]. destruct (H2 0) as (v' & Hv' & E'); [simpl; lia|].
  rewrite Hv in Hv'. injection Hv' as <-. vm_compute in E, E'. subst v. discriminate.
Qed.
Print Assumptions C48_kk_gemv_updating_refuted.
(** 2x1: agrees with the inline algorithm. *)
Example C48_case :
  let m : mem zops := mem_of [1;2; 3; 100;200; 0;0]%Z in
  par_same_as (kk_matrix_vector_product_upd (row_major 0 2 1) (vec_at 2 1) (vec_at 3 2) (vec_at 5 2))
    (matrix_vector_product_upd (row_major 0 2 1) (vec_at 2 1) (vec_at 3 2) (vec_at 5 2)) m.
Proof.
  intros. apply C48_kk_gemv_updating_same_as_inline_partial with (a := zm [[1];[2]]%Z) (f := zv [3]%Z) (g := zv [100;200]%Z); conc.
  left; reflexivity.
Qed.
(** 2x3: row i of A times x plus three times y(i). *)
Example C48_value_case :
  let m : mem zops := mem_of [1;2;3; 4;5;6; 1;1;1; 100;200; 0;0]%Z in
  let z := vec_at 11 2 in
  par_succeeds (kk_matrix_vector_product_upd (row_major 0 2 3) (vec_at 6 3) (vec_at 9 2) z) m (fun m' =>
    vec_holds m' z (zv [306;615]%Z) /\ changes_only m m' (vcells z)).
Proof.
  intros. eapply par_mono; [apply C48_kk_gemv_updating_value_partial with (a := zm [[1;2;3];[4;5;6]]%Z) (f := zv [1;1;1]%Z) (g := zv [100;200]%Z); conc|].
  intros m' [H1 H2]; split; auto. elems1 H1.
Qed.

(** * C49 *)
(** B may be C itself ([disjoint_or_aligned_m]). *)
Theorem C49_kk_trmm_left : forall (O : ops) (m : mem O) A t B C a b,
  ring_laws O ->
  ext0 A = ext1 A -> ext0 C = ext0 A -> ext1 A = ext0 B -> ext1 C = ext1 B -> plain_m A -> plain_m B -> plain_m C ->
  mat_holds_on m A (stored t ImplicitUnit) a -> mat_holds m B b -> allocated m (mcells C) ->
  disjoint (mcells_on A (stored t ImplicitUnit)) (mcells C) -> disjoint_or_aligned_m B C ->
  par_succeeds (kk_triangular_matrix_left_product_unit A t B C) m (fun m' =>
    mat_holds m' C (fun i j => bigsum (ext1 A) (fun k => tri_of t ImplicitUnit a i k * b k j)) /\ changes_only m m' (mcells C)).
Proof. exact (@kk_trmm_left_unit_ok). Qed.
Print Assumptions C49_kk_trmm_left.

Theorem C49_kk_trmm_right : forall (O : ops) (m : mem O) A t B C a b,
  ring_laws O ->
  ext0 A = ext1 A -> ext0 C = ext0 B -> ext1 B = ext0 A -> ext1 C = ext1 A -> plain_m A -> plain_m B -> plain_m C ->
  mat_holds_on m A (stored t ImplicitUnit) a -> mat_holds m B b -> allocated m (mcells C) ->
  disjoint (mcells_on A (stored t ImplicitUnit)) (mcells C) -> disjoint_or_aligned_m B C ->
  par_succeeds (kk_triangular_matrix_right_product_unit A t B C) m (fun m' =>
    mat_holds m' C (fun i j => bigsum (ext1 A) (fun k => b i k * tri_of t ImplicitUnit a k j)) /\ changes_only m m' (mcells C)).
Proof. exact (@kk_trmm_right_unit_ok). Qed.
Print Assumptions C49_kk_trmm_right.

Theorem C49_kk_trmm_left_inplace : forall (O : ops) (m : mem O) A t C a c,
  ring_laws O ->
  ext0 A = ext1 A -> ext0 C = ext0 A -> plain_m A -> plain_m C ->
  mat_holds_on m A (stored t ImplicitUnit) a -> mat_holds m C c ->
  disjoint (mcells_on A (stored t ImplicitUnit)) (mcells C) ->
  par_succeeds (kk_triangular_matrix_left_product_inplace_unit A t C) m (fun m' =>
    mat_holds m' C (fun i j => bigsum (ext1 A) (fun k => tri_of t ImplicitUnit a i k * c k j)) /\ changes_only m m' (mcells C)).
Proof. exact (@kk_trmm_left_inplace_unit_ok). Qed.
Print Assumptions C49_kk_trmm_left_inplace.

Theorem C49_kk_trmm_right_inplace : forall (O : ops) (m : mem O) A t C a c,
  ring_laws O ->
  ext0 A = ext1 A -> ext1 C = ext0 A -> plain_m A -> plain_m C ->
  mat_holds_on m A (stored t ImplicitUnit) a -> mat_holds m C c ->
  disjoint (mcells_on A (stored t ImplicitUnit)) (mcells C) ->
  par_succeeds (kk_triangular_matrix_right_product_inplace_unit A t C) m (fun m' =>
    mat_holds m' C (fun i j => bigsum (ext1 A) (fun k => c i k * tri_of t ImplicitUnit a k j)) /\ changes_only m m' (mcells C)).
Proof. exact (@kk_trmm_right_inplace_unit_ok). Qed.
Print Assumptions C49_kk_trmm_right_inplace.

Theorem C49_kk_trmm_left_same_as_inline : forall (O : ops) (m : mem O) A t C a c,
  ring_laws O ->
  ext0 A = ext1 A -> ext0 C = ext0 A -> plain_m A -> plain_m C ->
  mat_holds_on m A (stored t ImplicitUnit) a -> mat_holds m C c ->
  disjoint (mcells_on A (stored t ImplicitUnit)) (mcells C) ->
  par_same_as (kk_triangular_matrix_left_product_inplace_unit A t C) (triangular_matrix_left_product A t ImplicitUnit C) m.
Proof. exact (@kk_trmm_left_inplace_same). Qed.
Print Assumptions C49_kk_trmm_left_same_as_inline.

Theorem C49_kk_trmm_right_same_as_inline : forall (O : ops) (m : mem O) A t C a c,
  ring_laws O ->
  ext0 A = ext1 A -> ext1 C = ext0 A -> plain_m A -> plain_m C ->
  mat_holds_on m A (stored t ImplicitUnit) a -> mat_holds m C c ->
  disjoint (mcells_on A (stored t ImplicitUnit)) (mcells C) ->
  par_same_as (kk_triangular_matrix_right_product_inplace_unit A t C) (triangular_matrix_right_product A t ImplicitUnit C) m.
Proof. exact (@kk_trmm_right_inplace_same). Qed.
Print Assumptions C49_kk_trmm_right_same_as_inline.

(** In place with an implicit unit diagonal; the diagonal cells of A are not allocated. *)
Example C49_case :
  let m : mem zops := fun a => if (a =? 0) || (a =? 3) then None else mem_of [0;2;0;0; 5;6; 7;8]%Z a in
  let A := row_major 0 2 2 in let C := row_major 4 2 2 in
  par_succeeds (kk_triangular_matrix_left_product_inplace_unit A Upper C) m (fun m' =>
    mat_holds m' C (zm [[19;22];[7;8]]%Z) /\ changes_only m m' (mcells C)) /\
  par_succeeds (kk_triangular_matrix_right_product_inplace_unit A Upper C) m (fun m' =>
    mat_holds m' C (zm [[5;16];[7;22]]%Z) /\ changes_only m m' (mcells C)) /\
  par_same_as (kk_triangular_matrix_left_product_inplace_unit A Upper C) (triangular_matrix_left_product A Upper ImplicitUnit C) m /\
  par_same_as (kk_triangular_matrix_right_product_inplace_unit A Upper C) (triangular_matrix_right_product A Upper ImplicitUnit C) m.
Proof.
  intros. repeat apply Logic.conj.
  - eapply par_mono; [apply C49_kk_trmm_left_inplace with (a := zm [[0;2];[0;0]]%Z) (c := zm [[5;6];[7;8]]%Z); conc|].
    intros m' [H1 H2]; split; auto. elems2 H1.
  - eapply par_mono; [apply C49_kk_trmm_right_inplace with (a := zm [[0;2];[0;0]]%Z) (c := zm [[5;6];[7;8]]%Z); conc|].
    intros m' [H1 H2]; split; auto. elems2 H1.
  - apply C49_kk_trmm_left_same_as_inline with (a := zm [[0;2];[0;0]]%Z) (c := zm [[5;6];[7;8]]%Z); conc.
  - apply C49_kk_trmm_right_same_as_inline with (a := zm [[0;2];[0;0]]%Z) (c := zm [[5;6];[7;8]]%Z); conc.
Qed.
Example C49_disjoint_case :
  let m : mem zops := mem_of [0;0;2;0; 5;6; 7;8; 0;0;0;0]%Z in
  let A := row_major 0 2 2 in let B := row_major 4 2 2 in let C := col_major 8 2 2 in
  par_succeeds (kk_triangular_matrix_left_product_unit A Lower B C) m (fun m' =>
    mat_holds m' C (zm [[5;6];[17;20]]%Z) /\ changes_only m m' (mcells C)) /\
  par_succeeds (kk_triangular_matrix_right_product_unit A Lower B C) m (fun m' =>
    mat_holds m' C (zm [[17;6];[23;8]]%Z) /\ changes_only m m' (mcells C)).
Proof.
  intros. split.
  - eapply par_mono; [apply C49_kk_trmm_left with (a := zm [[0;0];[2;0]]%Z) (b := zm [[5;6];[7;8]]%Z); conc|].
    intros m' [H1 H2]; split; auto. elems2 H1.
  - eapply par_mono; [apply C49_kk_trmm_right with (a := zm [[0;0];[2;0]]%Z) (b := zm [[5;6];[7;8]]%Z); conc|].
    intros m' [H1 H2]; split; auto. elems2 H1.
Qed.

(** * C50 *)
(** With the lower triangle the order of summation is the same as in the mathematical sum and no law is needed; with the upper triangle addition must be associative and commutative. *)
Theorem C50_kk_symv : forall (O : ops) (m : mem O) A t x y a f,
  add_laws O \/ t = Lower ->
  ext0 A = ext1 A -> vext x = ext1 A -> vext y = ext0 A -> plain_m A -> plain_v x -> plain_v y ->
  mat_holds_on m A (in_tri t) a -> vec_holds m x f -> allocated m (vcells y) ->
  disjoint (mcells_on A (in_tri t)) (vcells y) -> disjoint (vcells x) (vcells y) ->
  par_succeeds (kk_symmetric_matrix_vector_product A t x y) m (fun m' =>
    vec_holds m' y (fun i => bigsum (ext1 A) (fun j => sym_of t a i j * f j)) /\ changes_only m m' (vcells y)).
Proof. exact (@kk_symv_ok). Qed.
Print Assumptions C50_kk_symv.

Theorem C50_kk_symv_same_as_inline : forall (O : ops) (m : mem O) A t x y a f,
  add_laws O \/ t = Lower ->
  ext0 A = ext1 A -> vext x = ext1 A -> vext y = ext0 A -> plain_m A -> plain_v x -> plain_v y ->
  mat_holds_on m A (in_tri t) a -> vec_holds m x f -> allocated m (vcells y) ->
  disjoint (mcells_on A (in_tri t)) (vcells y) -> disjoint (vcells x) (vcells y) ->
  par_same_as (kk_symmetric_matrix_vector_product A t x y) (symmetric_matrix_vector_product A t x y) m.
Proof. exact (@kk_symv_same). Qed.
Print Assumptions C50_kk_symv_same_as_inline.

Theorem C50_kk_symv_upd : forall (O : ops) (m : mem O) A t x y z a f g,
  add_laws O ->
  ext0 A = ext1 A -> vext x = ext1 A -> vext y = ext0 A -> vext z = ext0 A -> plain_m A -> plain_v x -> plain_v y -> plain_v z ->
  mat_holds_on m A (in_tri t) a -> vec_holds m x f -> vec_holds m y g -> allocated m (vcells z) ->
  disjoint (mcells_on A (in_tri t)) (vcells z) -> disjoint (vcells x) (vcells z) -> disjoint_or_aligned_v y z ->
  par_succeeds (kk_symmetric_matrix_vector_product_upd A t x y z) m (fun m' =>
    vec_holds m' z (fun i => sum_from (g i) 0 (ext1 A) (fun j => sym_of t a i j * f j)) /\ changes_only m m' (vcells z)).
Proof. exact (@kk_symv_upd_ok). Qed.
Print Assumptions C50_kk_symv_upd.

Theorem C50_kk_symv_upd_same_as_inline : forall (O : ops) (m : mem O) A t x y z a f g,
  add_laws O ->
  ext0 A = ext1 A -> vext x = ext1 A -> vext y = ext0 A -> vext z = ext0 A -> plain_m A -> plain_v x -> plain_v y -> plain_v z ->
  mat_holds_on m A (in_tri t) a -> vec_holds m x f -> vec_holds m y g -> allocated m (vcells z) ->
  disjoint (mcells_on A (in_tri t)) (vcells z) -> disjoint (vcells x) (vcells z) -> disjoint_or_aligned_v y z ->
  par_same_as (kk_symmetric_matrix_vector_product_upd A t x y z) (symmetric_matrix_vector_product_upd A t x y z) m.
Proof. exact (@kk_symv_upd_same). Qed.
Print Assumptions C50_kk_symv_upd_same_as_inline.

(** Law-free for the lower triangle and for explicit diagonals: exactly the sum that the inline algorithm forms. *)
Theorem C50_kk_trmv : forall (O : ops) (m : mem O) A t d x y a f,
  add_laws O \/ t = Lower \/ d = Explicit ->
  ext0 A = ext1 A -> vext x = ext1 A -> vext y = ext0 A -> plain_m A -> plain_v x -> plain_v y ->
  mat_holds_on m A (stored t d) a -> vec_holds m x f -> allocated m (vcells y) ->
  disjoint (mcells_on A (stored t d)) (vcells y) -> disjoint (vcells x) (vcells y) ->
  par_succeeds (kk_triangular_matrix_vector_product A t d x y) m (fun m' =>
    vec_holds m' y (tri_row zero t d (ext1 A) a f) /\ changes_only m m' (vcells y)).
Proof. exact (@kk_trmv_ok). Qed.
Print Assumptions C50_kk_trmv.

Theorem C50_kk_trmv_product : forall (O : ops) (m : mem O) A t d x y a f,
  ring_laws O ->
  ext0 A = ext1 A -> vext x = ext1 A -> vext y = ext0 A -> plain_m A -> plain_v x -> plain_v y ->
  mat_holds_on m A (stored t d) a -> vec_holds m x f -> allocated m (vcells y) ->
  disjoint (mcells_on A (stored t d)) (vcells y) -> disjoint (vcells x) (vcells y) ->
  par_succeeds (kk_triangular_matrix_vector_product A t d x y) m (fun m' =>
    vec_holds m' y (fun i => bigsum (ext1 A) (fun j => tri_of t d a i j * f j)) /\ changes_only m m' (vcells y)).
Proof. exact (@kk_trmv_ring). Qed.
Print Assumptions C50_kk_trmv_product.

Theorem C50_kk_trmv_same_as_inline : forall (O : ops) (m : mem O) A t d x y a f,
  add_laws O \/ t = Lower \/ d = Explicit ->
  ext0 A = ext1 A -> vext x = ext1 A -> vext y = ext0 A -> plain_m A -> plain_v x -> plain_v y ->
  mat_holds_on m A (stored t d) a -> vec_holds m x f -> allocated m (vcells y) ->
  disjoint (mcells_on A (stored t d)) (vcells y) -> disjoint (vcells x) (vcells y) ->
  par_same_as (kk_triangular_matrix_vector_product A t d x y) (triangular_matrix_vector_product A t d x y) m.
Proof. exact (@kk_trmv_same). Qed.
Print Assumptions C50_kk_trmv_same_as_inline.

Theorem C50_kk_trmv_upd : forall (O : ops) (m : mem O) A t d x y z a f g,
  add_laws O ->
  ext0 A = ext1 A -> vext x = ext1 A -> vext y = ext0 A -> vext z = ext0 A -> plain_m A -> plain_v x -> plain_v y -> plain_v z ->
  mat_holds_on m A (stored t d) a -> vec_holds m x f -> vec_holds m y g -> allocated m (vcells z) ->
  disjoint (mcells_on A (stored t d)) (vcells z) -> disjoint (vcells x) (vcells z) -> disjoint_or_aligned_v y z ->
  par_succeeds (kk_triangular_matrix_vector_product_upd A t d x y z) m (fun m' =>
    vec_holds m' z (fun i => tri_row (g i) t d (ext1 A) a f i) /\ changes_only m m' (vcells z)).
Proof. exact (@kk_trmv_upd_ok). Qed.
Print Assumptions C50_kk_trmv_upd.

Theorem C50_kk_trmv_upd_same_as_inline : forall (O : ops) (m : mem O) A t d x y z a f g,
  add_laws O ->
  ext0 A = ext1 A -> vext x = ext1 A -> vext y = ext0 A -> vext z = ext0 A -> plain_m A -> plain_v x -> plain_v y -> plain_v z ->
  mat_holds_on m A (stored t d) a -> vec_holds m x f -> vec_holds m y g -> allocated m (vcells z) ->
  disjoint (mcells_on A (stored t d)) (vcells z) -> disjoint (vcells x) (vcells z) -> disjoint_or_aligned_v y z ->
  par_same_as (kk_triangular_matrix_vector_product_upd A t d x y z) (triangular_matrix_vector_product_upd A t d x y z) m.
Proof. exact (@kk_trmv_upd_same). Qed.
Print Assumptions C50_kk_trmv_upd_same_as_inline.

(** Hermitian: full statement without the hypothesis on the diagonal is false, see the refutation. *)
(** What is computed for every stored diagonal: the diagonal elements are used as stored. *)
Theorem C50_kk_hemv_stored_partial : forall (O : ops) (m : mem O) A t x y a f,
  add_laws O \/ t = Lower ->
  ext0 A = ext1 A -> vext x = ext1 A -> vext y = ext0 A -> plain_m A -> plain_v x -> plain_v y ->
  mat_holds_on m A (in_tri t) a -> vec_holds m x f -> allocated m (vcells y) ->
  disjoint (mcells_on A (in_tri t)) (vcells y) -> disjoint (vcells x) (vcells y) ->
  par_succeeds (kk_hermitian_matrix_vector_product A t x y) m (fun m' =>
    vec_holds m' y (fun i => bigsum (ext1 A) (fun j => fc_of conj t a i j * f j)) /\ changes_only m m' (vcells y)).
Proof. exact (@kk_hemv_actual). Qed.
Print Assumptions C50_kk_hemv_stored_partial.

(** Missing: stored diagonals with a nonzero imaginary part. *)
Theorem C50_kk_hemv_partial : forall (O : ops) (m : mem O) A t x y a f,
  add_laws O \/ t = Lower -> (forall i, i < ext0 A -> re (a i i) = a i i) ->
  ext0 A = ext1 A -> vext x = ext1 A -> vext y = ext0 A -> plain_m A -> plain_v x -> plain_v y ->
  mat_holds_on m A (in_tri t) a -> vec_holds m x f -> allocated m (vcells y) ->
  disjoint (mcells_on A (in_tri t)) (vcells y) -> disjoint (vcells x) (vcells y) ->
  par_succeeds (kk_hermitian_matrix_vector_product A t x y) m (fun m' =>
    vec_holds m' y (fun i => bigsum (ext1 A) (fun j => herm_of t a i j * f j)) /\ changes_only m m' (vcells y)).
Proof. exact (@kk_hemv_real). Qed.
Print Assumptions C50_kk_hemv_partial.

Theorem C50_kk_hemv_same_as_inline_partial : forall (O : ops) (m : mem O) A t x y a f,
  add_laws O \/ t = Lower -> (forall i, i < ext0 A -> re (a i i) = a i i) ->
  ext0 A = ext1 A -> vext x = ext1 A -> vext y = ext0 A -> plain_m A -> plain_v x -> plain_v y ->
  mat_holds_on m A (in_tri t) a -> vec_holds m x f -> allocated m (vcells y) ->
  disjoint (mcells_on A (in_tri t)) (vcells y) -> disjoint (vcells x) (vcells y) ->
  par_same_as (kk_hermitian_matrix_vector_product A t x y) (hermitian_matrix_vector_product A t x y) m.
Proof. exact (@kk_hemv_same_real). Qed.
Print Assumptions C50_kk_hemv_same_as_inline_partial.

Theorem C50_kk_hemv_upd_partial : forall (O : ops) (m : mem O) A t x y z a f g,
  add_laws O -> (forall i, i < ext0 A -> re (a i i) = a i i) ->
  ext0 A = ext1 A -> vext x = ext1 A -> vext y = ext0 A -> vext z = ext0 A -> plain_m A -> plain_v x -> plain_v y -> plain_v z ->
  mat_holds_on m A (in_tri t) a -> vec_holds m x f -> vec_holds m y g -> allocated m (vcells z) ->
  disjoint (mcells_on A (in_tri t)) (vcells z) -> disjoint (vcells x) (vcells z) -> disjoint_or_aligned_v y z ->
  par_succeeds (kk_hermitian_matrix_vector_product_upd A t x y z) m (fun m' =>
    vec_holds m' z (fun i => sum_from (g i) 0 (ext1 A) (fun j => herm_of t a i j * f j)) /\ changes_only m m' (vcells z)).
Proof. exact (@kk_hemv_upd_real). Qed.
Print Assumptions C50_kk_hemv_upd_partial.

Theorem C50_kk_hemv_upd_same_as_inline_partial : forall (O : ops) (m : mem O) A t x y z a f g,
  add_laws O -> (forall i, i < ext0 A -> re (a i i) = a i i) ->
  ext0 A = ext1 A -> vext x = ext1 A -> vext y = ext0 A -> vext z = ext0 A -> plain_m A -> plain_v x -> plain_v y -> plain_v z ->
  mat_holds_on m A (in_tri t) a -> vec_holds m x f -> vec_holds m y g -> allocated m (vcells z) ->
  disjoint (mcells_on A (in_tri t)) (vcells z) -> disjoint (vcells x) (vcells z) -> disjoint_or_aligned_v y z ->
  par_same_as (kk_hermitian_matrix_vector_product_upd A t x y z) (hermitian_matrix_vector_product_upd A t x y z) m.
Proof. exact (@kk_hemv_upd_same_real). Qed.
Print Assumptions C50_kk_hemv_upd_same_as_inline_partial.

Theorem C50_kk_hemv_refuted : exists (m : mem gops) A t x y a f,
  ext0 A = ext1 A /\ vext x = ext1 A /\ vext y = ext0 A /\ plain_m A /\ plain_v x /\ plain_v y /\
  mat_holds_on m A (in_tri t) a /\ vec_holds m x f /\ allocated m (vcells y) /\
  disjoint (mcells_on A (in_tri t)) (vcells y) /\ disjoint (vcells x) (vcells y) /\
  ~ par_same_as (kk_hermitian_matrix_vector_product A t x y) (hermitian_matrix_vector_product A t x y) m.
Proof.
  exists (mem_of [(0,1); (1,0); (0,0)]%Z), (row_major 0 1 1), Lower, (vec_at 1 1), (vec_at 2 1),
    (gm [[(0,1)]]%Z), (gv [(1,0)]%Z).
  do 11 (split; [conc|]).
  eapply par_not; [apply C50_kk_hemv_stored_partial with (a := gm [[(0,1)]]%Z) (f := gv [(1,0)]%Z); conc|].
  intros m' [H1 _] (u & m2 & Hr & Hs). destruct (H1 0) as (v & Hv & E); [simpl; lia|].
  change (m' 2 = Some v) in Hv. differ Hr Hs Hv E 2.
Qed.
Print Assumptions C50_kk_hemv_refuted.

Theorem C50_kk_symmetric_mv_throws : forall (O : ops) A t (x y : vec O),
  par_throws (kk_symmetric_matrix_vector_product A t x y) <-> ext0 A <> ext1 A \/ ext1 A <> vext x \/ ext0 A <> vext y.
Proof. intros. apply kk_mv_throws. Qed.
Print Assumptions C50_kk_symmetric_mv_throws.

Theorem C50_kk_symmetric_mv_upd_throws : forall (O : ops) A t (x y z : vec O),
  par_throws (kk_symmetric_matrix_vector_product_upd A t x y z) <-> ext0 A <> ext1 A \/ ext1 A <> vext x \/ ext0 A <> vext y \/ ext0 A <> vext z.
Proof. intros. apply kk_mv_upd_throws. Qed.
Print Assumptions C50_kk_symmetric_mv_upd_throws.

Theorem C50_kk_hermitian_mv_throws : forall (O : ops) A t (x y : vec O),
  par_throws (kk_hermitian_matrix_vector_product A t x y) <-> ext0 A <> ext1 A \/ ext1 A <> vext x \/ ext0 A <> vext y.
Proof. intros. apply kk_mv_throws. Qed.
Print Assumptions C50_kk_hermitian_mv_throws.

Theorem C50_kk_hermitian_mv_upd_throws : forall (O : ops) A t (x y z : vec O),
  par_throws (kk_hermitian_matrix_vector_product_upd A t x y z) <-> ext0 A <> ext1 A \/ ext1 A <> vext x \/ ext0 A <> vext y \/ ext0 A <> vext z.
Proof. intros. apply kk_mv_upd_throws. Qed.
Print Assumptions C50_kk_hermitian_mv_upd_throws.

Theorem C50_kk_trmv_throws : forall (O : ops) A t d (x y : vec O),
  par_throws (kk_triangular_matrix_vector_product A t d x y) <-> ext0 A <> ext1 A \/ ext1 A <> vext x \/ ext0 A <> vext y.
Proof. exact (@kk_trmv_throws). Qed.
Print Assumptions C50_kk_trmv_throws.

Theorem C50_kk_trmv_upd_throws : forall (O : ops) A t d (x y z : vec O),
  par_throws (kk_triangular_matrix_vector_product_upd A t d x y z) <-> ext0 A <> ext1 A \/ ext1 A <> vext x \/ ext0 A <> vext y \/ ext0 A <> vext z.
Proof. exact (@kk_trmv_upd_throws). Qed.
Print Assumptions C50_kk_trmv_upd_throws.

Example C50_symv_case :
  let m : mem zops := fun a => if a =? 2 then None else mem_of [1;2;0;4; 5;6; 100;200]%Z a in
  let A := row_major 0 2 2 in let x := vec_at 4 2 in let y := vec_at 6 2 in
  par_succeeds (kk_symmetric_matrix_vector_product A Upper x y) m (fun m' =>
    vec_holds m' y (zv [17;34]%Z) /\ changes_only m m' (vcells y)) /\
  par_same_as (kk_symmetric_matrix_vector_product A Upper x y) (symmetric_matrix_vector_product A Upper x y) m /\
  par_succeeds (kk_symmetric_matrix_vector_product_upd A Upper x y y) m (fun m' =>
    vec_holds m' y (zv [117;234]%Z) /\ changes_only m m' (vcells y)) /\
  par_same_as (kk_symmetric_matrix_vector_product_upd A Upper x y y) (symmetric_matrix_vector_product_upd A Upper x y y) m.
Proof.
  intros. repeat apply Logic.conj.
  - eapply par_mono; [apply C50_kk_symv with (a := zm [[1;2];[0;4]]%Z) (f := zv [5;6]%Z); conc|].
    intros m' [H1 H2]; split; auto. elems1 H1.
  - apply C50_kk_symv_same_as_inline with (a := zm [[1;2];[0;4]]%Z) (f := zv [5;6]%Z); conc.
  - eapply par_mono; [apply C50_kk_symv_upd with (a := zm [[1;2];[0;4]]%Z) (f := zv [5;6]%Z) (g := zv [100;200]%Z); conc|].
    intros m' [H1 H2]; split; auto. elems1 H1.
  - apply C50_kk_symv_upd_same_as_inline with (a := zm [[1;2];[0;4]]%Z) (f := zv [5;6]%Z) (g := zv [100;200]%Z); conc.
Qed.
Example C50_trmv_case :
  let m : mem zops := fun a => if (a =? 0) || (a =? 1) || (a =? 3) then None else mem_of [0;0;3;0; 5;6; 100;200]%Z a in
  let A := row_major 0 2 2 in let x := vec_at 4 2 in let y := vec_at 6 2 in
  par_succeeds (kk_triangular_matrix_vector_product A Lower ImplicitUnit x y) m (fun m' =>
    vec_holds m' y (zv [5;21]%Z) /\ changes_only m m' (vcells y)) /\
  par_same_as (kk_triangular_matrix_vector_product A Lower ImplicitUnit x y) (triangular_matrix_vector_product A Lower ImplicitUnit x y) m /\
  par_succeeds (kk_triangular_matrix_vector_product_upd A Lower ImplicitUnit x y y) m (fun m' =>
    vec_holds m' y (zv [105;221]%Z) /\ changes_only m m' (vcells y)) /\
  par_same_as (kk_triangular_matrix_vector_product_upd A Lower ImplicitUnit x y y) (triangular_matrix_vector_product_upd A Lower ImplicitUnit x y y) m.
Proof.
  intros. repeat apply Logic.conj.
  - eapply par_mono; [apply C50_kk_trmv_product with (a := zm [[0;0];[3;0]]%Z) (f := zv [5;6]%Z); conc|].
    intros m' [H1 H2]; split; auto. elems1 H1.
  - apply C50_kk_trmv_same_as_inline with (a := zm [[0;0];[3;0]]%Z) (f := zv [5;6]%Z); conc.
  - eapply par_mono; [apply C50_kk_trmv_upd with (a := zm [[0;0];[3;0]]%Z) (f := zv [5;6]%Z) (g := zv [100;200]%Z); conc|].
    intros m' [H1 H2]; split; auto. elems1 H1.
  - apply C50_kk_trmv_upd_same_as_inline with (a := zm [[0;0];[3;0]]%Z) (f := zv [5;6]%Z) (g := zv [100;200]%Z); conc.
Qed.
Example C50_hemv_case :
  let m : mem gops := mem_of [(1,0);(2,3);(9,9);(4,0); (1,1);(0,2); (7,7);(8,8)]%Z in
  let A := row_major 0 2 2 in let x := vec_at 4 2 in let y := vec_at 6 2 in
  par_same_as (kk_hermitian_matrix_vector_product A Upper x y) (hermitian_matrix_vector_product A Upper x y) m /\
  par_same_as (kk_hermitian_matrix_vector_product_upd A Upper x y y) (hermitian_matrix_vector_product_upd A Upper x y y) m /\
  par_succeeds (kk_hermitian_matrix_vector_product A Upper x y) m (fun m' =>
    vec_holds m' y (gv [(-5,5);(5,7)]%Z) /\ changes_only m m' (vcells y)).
Proof.
  intros. repeat apply Logic.conj.
  - apply C50_kk_hemv_same_as_inline_partial with (a := gm [[(1,0);(2,3)];[(9,9);(4,0)]]%Z) (f := gv [(1,1);(0,2)]%Z); conc.
    intros [|[|i]] Hi; [reflexivity..|simpl in Hi; lia].
  - apply C50_kk_hemv_upd_same_as_inline_partial with (a := gm [[(1,0);(2,3)];[(9,9);(4,0)]]%Z) (f := gv [(1,1);(0,2)]%Z)
      (g := gv [(7,7);(8,8)]%Z); conc.
    intros [|[|i]] Hi; [reflexivity..|simpl in Hi; lia].
  - eapply par_mono; [apply C50_kk_hemv_partial with (a := gm [[(1,0);(2,3)];[(9,9);(4,0)]]%Z) (f := gv [(1,1);(0,2)]%Z); conc|].
    + intros [|[|i]] Hi; [reflexivity..|simpl in Hi; lia].
    + intros m' [H1 H2]; split; auto. elems1 H1.
Qed.

(** * C51 *)
(** It throws exactly when some extent does not conform, and then has not touched memory (the throw precedes every region). *)
Theorem C51_kk_symmetric_left_throws : forall (O : ops) A t (B C : mat O),
  par_throws (kk_symmetric_matrix_left_product A t B C) <-> ext0 A <> ext1 A \/ ext1 A <> ext0 B \/ ext0 A <> ext0 C \/ ext1 B <> ext1 C.
Proof. intros. apply kk_left_throws. Qed.
Print Assumptions C51_kk_symmetric_left_throws.

Theorem C51_kk_symmetric_right_throws : forall (O : ops) A t (B C : mat O),
  par_throws (kk_symmetric_matrix_right_product A t B C) <-> ext0 A <> ext1 A \/ ext1 B <> ext0 A \/ ext0 B <> ext0 C \/ ext1 A <> ext1 C.
Proof. intros. apply kk_right_throws. Qed.
Print Assumptions C51_kk_symmetric_right_throws.

Theorem C51_kk_symmetric_left_updating_throws : forall (O : ops) A t (B E C : mat O),
  par_throws (kk_symmetric_matrix_left_product_upd A t B E C) <-> ext0 A <> ext1 A \/ ext1 A <> ext0 B \/ ext0 A <> ext0 C \/ ext1 B <> ext1 C \/ ext0 E <> ext0 C \/ ext1 E <> ext1 C.
Proof. intros. apply kk_left_upd_throws. Qed.
Print Assumptions C51_kk_symmetric_left_updating_throws.

Theorem C51_kk_hermitian_left_throws : forall (O : ops) A t (B C : mat O),
  par_throws (kk_hermitian_matrix_left_product A t B C) <-> ext0 A <> ext1 A \/ ext1 A <> ext0 B \/ ext0 A <> ext0 C \/ ext1 B <> ext1 C.
Proof. intros. apply kk_left_throws. Qed.
Print Assumptions C51_kk_hermitian_left_throws.

Theorem C51_kk_hermitian_right_throws : forall (O : ops) A t (B C : mat O),
  par_throws (kk_hermitian_matrix_right_product A t B C) <-> ext0 A <> ext1 A \/ ext1 B <> ext0 A \/ ext0 B <> ext0 C \/ ext1 A <> ext1 C.
Proof. intros. apply kk_right_throws. Qed.
Print Assumptions C51_kk_hermitian_right_throws.

Theorem C51_kk_hermitian_left_updating_throws : forall (O : ops) A t (B E C : mat O),
  par_throws (kk_hermitian_matrix_left_product_upd A t B E C) <-> ext0 A <> ext1 A \/ ext1 A <> ext0 B \/ ext0 A <> ext0 C \/ ext1 B <> ext1 C \/ ext0 E <> ext0 C \/ ext1 E <> ext1 C.
Proof. intros. apply kk_left_upd_throws. Qed.
Print Assumptions C51_kk_hermitian_left_updating_throws.

Theorem C51_kk_symmetric_right_updating_throws : forall (O : ops) A t (B E C : mat O),
  par_throws (kk_symmetric_matrix_right_product_upd A t B E C) <-> ext0 A <> ext1 A \/ ext1 B <> ext0 A \/ ext0 B <> ext0 C \/ ext1 A <> ext1 C \/ ext0 E <> ext0 C \/ ext1 E <> ext1 C.
Proof. exact (@kk_symm_right_upd_throws). Qed.
Print Assumptions C51_kk_symmetric_right_updating_throws.

Theorem C51_kk_trmm_left_throws : forall (O : ops) A t (B C : mat O),
  par_throws (kk_triangular_matrix_left_product_unit A t B C) <-> ext0 A <> ext1 A \/ ext1 A <> ext0 B \/ ext0 A <> ext0 C \/ ext1 B <> ext1 C.
Proof. exact (@kk_trmm_left_throws). Qed.
Print Assumptions C51_kk_trmm_left_throws.

Theorem C51_kk_trmm_right_throws : forall (O : ops) A t (B C : mat O),
  par_throws (kk_triangular_matrix_right_product_unit A t B C) <-> ext0 A <> ext1 A \/ ext1 B <> ext0 A \/ ext0 B <> ext0 C \/ ext1 A <> ext1 C.
Proof. exact (@kk_trmm_right_throws). Qed.
Print Assumptions C51_kk_trmm_right_throws.

Theorem C51_kk_trmm_left_inplace_throws : forall (O : ops) A t (C : mat O),
  par_throws (kk_triangular_matrix_left_product_inplace_unit A t C) <-> ext0 A <> ext1 A \/ ext1 A <> ext0 C.
Proof. exact (@kk_trmm_left_inplace_throws). Qed.
Print Assumptions C51_kk_trmm_left_inplace_throws.

Theorem C51_kk_trmm_right_inplace_throws : forall (O : ops) A t (C : mat O),
  par_throws (kk_triangular_matrix_right_product_inplace_unit A t C) <-> ext0 A <> ext1 A \/ ext1 C <> ext0 A.
Proof. exact (@kk_trmm_right_inplace_throws). Qed.
Print Assumptions C51_kk_trmm_right_inplace_throws.

(** Missing here: the extents of E are not checked. *)
Theorem C51_kk_hermitian_right_updating_throws_partial : forall (O : ops) A t (B E C : mat O),
  par_throws (kk_hermitian_matrix_right_product_upd A t B E C) <-> ext0 A <> ext1 A \/ ext1 B <> ext0 A \/ ext0 B <> ext0 C \/ ext1 A <> ext1 C.
Proof. exact (@kk_hemm_right_upd_throws). Qed.
Print Assumptions C51_kk_hermitian_right_updating_throws_partial.

(** With a 0x0 accumulator E the call neither throws nor succeeds: it reads outside E. *)
Theorem C51_hermitian_right_updating_refuted : exists (m : mem gops) A t B E C a b,
  ext0 E <> ext0 C /\ ext0 A = ext1 A /\ ext0 C = ext0 B /\ ext1 B = ext0 A /\ ext1 C = ext1 A /\
  plain_m A /\ plain_m B /\ plain_m E /\ plain_m C /\
  mat_holds m A a /\ mat_holds m B b /\ allocated m (mcells E) /\ allocated m (mcells C) /\
  ~ par_throws (kk_hermitian_matrix_right_product_upd A t B E C) /\
  ~ par_succeeds (kk_hermitian_matrix_right_product_upd A t B E C) m (fun _ => True).
Proof.
  exists (mem_of [(1,0); (1,0); (0,0)]%Z), (row_major 0 1 1), Lower, (row_major 1 1 1), (row_major 9 0 0), (row_major 2 1 1),
    (gm [[(1,0)]]%Z), (gm [[(1,0)]]%Z).
  split; [discriminate|]. do 12 (split; [conc|]). split; [discriminate|].
  intros H. change (region_ok (tasks 1 (fun j => for_range 0 1 (fun i =>
    (let! e := mget (row_major 9 0 0) i j in mset (row_major 2 1 1) i j e) ;;
    for_range 0 1 (fun k => let! e := kk_right_term conj Lower (row_major 1 1 1) (row_major 0 1 1) (row_major 1 1 1) i j k in
      macc_add (row_major 2 1 1) i j e))%prog)) (mem_of [(1,0); (1,0); (0,0)]%Z : mem gops) (fun _ => True)) in H.
  destruct (H _ _ (rt1n_refl _ _ _)) as (_ & Hs & _). eapply Hs; [left; reflexivity|].
  split; [intros []|]. intros p' m' Hst. inversion Hst; discriminate.
Qed.
Print Assumptions C51_hermitian_right_updating_refuted.

Example C51_throws_case :
  par_throws (kk_symmetric_matrix_left_product_upd (@row_major zops 0 2 2) Upper (row_major 4 2 3) (row_major 10 2 2) (row_major 16 2 3)).
Proof. apply C51_kk_symmetric_left_updating_throws. simpl. lia. Qed.

(** * C56 *)
Theorem C56_kk_symm_left : forall (O : ops) (m : mem O) A t B C a b,
  ext0 A = ext1 A -> ext0 C = ext0 A -> ext1 A = ext0 B -> ext1 C = ext1 B -> plain_m A -> plain_m B -> plain_m C ->
  mat_holds_on m A (in_tri t) a -> mat_holds m B b -> allocated m (mcells C) ->
  disjoint (mcells_on A (in_tri t)) (mcells C) -> disjoint (mcells B) (mcells C) ->
  par_succeeds (kk_symmetric_matrix_left_product A t B C) m (fun m' =>
    mat_holds m' C (fun i j => bigsum (ext1 A) (fun k => sym_of t a i k * b k j)) /\ changes_only m m' (mcells C)).
Proof. exact (@kk_symm_left_ok). Qed.
Print Assumptions C56_kk_symm_left.

Theorem C56_kk_symm_left_upd : forall (O : ops) (m : mem O) A t B E C a b e,
  ext0 A = ext1 A -> ext0 C = ext0 A -> ext1 A = ext0 B -> ext1 C = ext1 B -> ext0 E = ext0 C -> ext1 E = ext1 C ->
  plain_m A -> plain_m B -> plain_m E -> plain_m C ->
  mat_holds_on m A (in_tri t) a -> mat_holds m B b -> mat_holds m E e -> allocated m (mcells C) ->
  disjoint (mcells_on A (in_tri t)) (mcells C) -> disjoint (mcells B) (mcells C) -> disjoint_or_aligned_m E C ->
  par_succeeds (kk_symmetric_matrix_left_product_upd A t B E C) m (fun m' =>
    mat_holds m' C (fun i j => sum_from (e i j) 0 (ext1 A) (fun k => sym_of t a i k * b k j)) /\ changes_only m m' (mcells C)).
Proof. exact (@kk_symm_left_upd_ok). Qed.
Print Assumptions C56_kk_symm_left_upd.

Theorem C56_kk_symm_right : forall (O : ops) (m : mem O) A t B C a b,
  ext0 A = ext1 A -> ext0 C = ext0 B -> ext1 B = ext0 A -> ext1 C = ext1 A -> plain_m A -> plain_m B -> plain_m C ->
  mat_holds_on m A (in_tri t) a -> mat_holds m B b -> allocated m (mcells C) ->
  disjoint (mcells_on A (in_tri t)) (mcells C) -> disjoint (mcells B) (mcells C) ->
  par_succeeds (kk_symmetric_matrix_right_product A t B C) m (fun m' =>
    mat_holds m' C (fun i j => bigsum (ext1 A) (fun k => b i k * sym_of t a k j)) /\ changes_only m m' (mcells C)).
Proof. exact (@kk_symm_right_ok). Qed.
Print Assumptions C56_kk_symm_right.

Theorem C56_kk_symm_right_upd : forall (O : ops) (m : mem O) A t B E C a b e,
  ext0 A = ext1 A -> ext0 C = ext0 B -> ext1 B = ext0 A -> ext1 C = ext1 A -> ext0 E = ext0 C -> ext1 E = ext1 C ->
  plain_m A -> plain_m B -> plain_m E -> plain_m C ->
  mat_holds_on m A (in_tri t) a -> mat_holds m B b -> mat_holds m E e -> allocated m (mcells C) ->
  disjoint (mcells_on A (in_tri t)) (mcells C) -> disjoint (mcells B) (mcells C) -> disjoint_or_aligned_m E C ->
  par_succeeds (kk_symmetric_matrix_right_product_upd A t B E C) m (fun m' =>
    mat_holds m' C (fun i j => sum_from (e i j) 0 (ext1 A) (fun k => b i k * sym_of t a k j)) /\ changes_only m m' (mcells C)).
Proof. exact (@kk_symm_right_upd_ok). Qed.
Print Assumptions C56_kk_symm_right_upd.

Theorem C56_kk_symm_left_same_as_inline : forall (O : ops) (m : mem O) A t B C a b,
  ext0 A = ext1 A -> ext0 C = ext0 A -> ext1 A = ext0 B -> ext1 C = ext1 B -> plain_m A -> plain_m B -> plain_m C ->
  mat_holds_on m A (in_tri t) a -> mat_holds m B b -> allocated m (mcells C) ->
  disjoint (mcells_on A (in_tri t)) (mcells C) -> disjoint (mcells B) (mcells C) ->
  par_same_as (kk_symmetric_matrix_left_product A t B C) (symmetric_matrix_product_left A t B C) m.
Proof. exact (@kk_symm_left_same). Qed.
Print Assumptions C56_kk_symm_left_same_as_inline.

Theorem C56_kk_symm_right_same_as_inline : forall (O : ops) (m : mem O) A t B C a b,
  ext0 A = ext1 A -> ext0 C = ext0 B -> ext1 B = ext0 A -> ext1 C = ext1 A -> plain_m A -> plain_m B -> plain_m C ->
  mat_holds_on m A (in_tri t) a -> mat_holds m B b -> allocated m (mcells C) ->
  disjoint (mcells_on A (in_tri t)) (mcells C) -> disjoint (mcells B) (mcells C) ->
  par_same_as (kk_symmetric_matrix_right_product A t B C) (symmetric_matrix_product_right B A t C) m.
Proof. exact (@kk_symm_right_same). Qed.
Print Assumptions C56_kk_symm_right_same_as_inline.

(** Missing: stored diagonals with a nonzero imaginary part; conj(A(i,i)) is used on the diagonal. *)
Theorem C56_kk_hemm_left_partial : forall (O : ops) (m : mem O) A t B C a b,
  (forall i, i < ext0 A -> conj (a i i) = re (a i i)) ->
  ext0 A = ext1 A -> ext0 C = ext0 A -> ext1 A = ext0 B -> ext1 C = ext1 B -> plain_m A -> plain_m B -> plain_m C ->
  mat_holds_on m A (in_tri t) a -> mat_holds m B b -> allocated m (mcells C) ->
  disjoint (mcells_on A (in_tri t)) (mcells C) -> disjoint (mcells B) (mcells C) ->
  par_succeeds (kk_hermitian_matrix_left_product A t B C) m (fun m' =>
    mat_holds m' C (fun i j => bigsum (ext1 A) (fun k => herm_of t a i k * b k j)) /\ changes_only m m' (mcells C)).
Proof. exact (@kk_hemm_left_real). Qed.
Print Assumptions C56_kk_hemm_left_partial.

Theorem C56_kk_hemm_left_upd_partial : forall (O : ops) (m : mem O) A t B E C a b e,
  (forall i, i < ext0 A -> conj (a i i) = re (a i i)) ->
  ext0 A = ext1 A -> ext0 C = ext0 A -> ext1 A = ext0 B -> ext1 C = ext1 B -> ext0 E = ext0 C -> ext1 E = ext1 C ->
  plain_m A -> plain_m B -> plain_m E -> plain_m C ->
  mat_holds_on m A (in_tri t) a -> mat_holds m B b -> mat_holds m E e -> allocated m (mcells C) ->
  disjoint (mcells_on A (in_tri t)) (mcells C) -> disjoint (mcells B) (mcells C) -> disjoint_or_aligned_m E C ->
  par_succeeds (kk_hermitian_matrix_left_product_upd A t B E C) m (fun m' =>
    mat_holds m' C (fun i j => sum_from (e i j) 0 (ext1 A) (fun k => herm_of t a i k * b k j)) /\ changes_only m m' (mcells C)).
Proof. exact (@kk_hemm_left_upd_real). Qed.
Print Assumptions C56_kk_hemm_left_upd_partial.

Theorem C56_kk_hemm_right_partial : forall (O : ops) (m : mem O) A t B C a b,
  (forall i, i < ext0 A -> conj (a i i) = re (a i i)) ->
  ext0 A = ext1 A -> ext0 C = ext0 B -> ext1 B = ext0 A -> ext1 C = ext1 A -> plain_m A -> plain_m B -> plain_m C ->
  mat_holds_on m A (in_tri t) a -> mat_holds m B b -> allocated m (mcells C) ->
  disjoint (mcells_on A (in_tri t)) (mcells C) -> disjoint (mcells B) (mcells C) ->
  par_succeeds (kk_hermitian_matrix_right_product A t B C) m (fun m' =>
    mat_holds m' C (fun i j => bigsum (ext1 A) (fun k => b i k * herm_of t a k j)) /\ changes_only m m' (mcells C)).
Proof. exact (@kk_hemm_right_real). Qed.
Print Assumptions C56_kk_hemm_right_partial.

Theorem C56_kk_hemm_right_upd_partial : forall (O : ops) (m : mem O) A t B E C a b e,
  (forall i, i < ext0 A -> conj (a i i) = re (a i i)) ->
  ext0 A = ext1 A -> ext0 C = ext0 B -> ext1 B = ext0 A -> ext1 C = ext1 A -> ext0 E = ext0 C -> ext1 E = ext1 C ->
  plain_m A -> plain_m B -> plain_m E -> plain_m C ->
  mat_holds_on m A (in_tri t) a -> mat_holds m B b -> mat_holds m E e -> allocated m (mcells C) ->
  disjoint (mcells_on A (in_tri t)) (mcells C) -> disjoint (mcells B) (mcells C) -> disjoint_or_aligned_m E C ->
  par_succeeds (kk_hermitian_matrix_right_product_upd A t B E C) m (fun m' =>
    mat_holds m' C (fun i j => sum_from (e i j) 0 (ext1 A) (fun k => b i k * herm_of t a k j)) /\ changes_only m m' (mcells C)).
Proof. exact (@kk_hemm_right_upd_real). Qed.
Print Assumptions C56_kk_hemm_right_upd_partial.

Theorem C56_kk_hemm_left_same_as_inline_partial : forall (O : ops) (m : mem O) A t B C a b,
  (forall i, i < ext0 A -> conj (a i i) = re (a i i)) ->
  ext0 A = ext1 A -> ext0 C = ext0 A -> ext1 A = ext0 B -> ext1 C = ext1 B -> plain_m A -> plain_m B -> plain_m C ->
  mat_holds_on m A (in_tri t) a -> mat_holds m B b -> allocated m (mcells C) ->
  disjoint (mcells_on A (in_tri t)) (mcells C) -> disjoint (mcells B) (mcells C) ->
  par_same_as (kk_hermitian_matrix_left_product A t B C) (hermitian_matrix_product_left A t B C) m.
Proof. exact (@kk_hemm_left_same_real). Qed.
Print Assumptions C56_kk_hemm_left_same_as_inline_partial.

Theorem C56_kk_hemm_left_refuted : exists (m : mem gops) A t B C a b,
  ext0 A = ext1 A /\ ext0 C = ext0 A /\ ext1 A = ext0 B /\ ext1 C = ext1 B /\ plain_m A /\ plain_m B /\ plain_m C /\
  mat_holds_on m A (in_tri t) a /\ mat_holds m B b /\ allocated m (mcells C) /\
  disjoint (mcells_on A (in_tri t)) (mcells C) /\ disjoint (mcells B) (mcells C) /\
  ~ par_same_as (kk_hermitian_matrix_left_product A t B C) (hermitian_matrix_product_left A t B C) m.
Proof.
  exists (mem_of [(0,1); (1,0); (0,0)]%Z), (row_major 0 1 1), Lower, (row_major 1 1 1), (row_major 2 1 1),
    (gm [[(0,1)]]%Z), (gm [[(1,0)]]%Z).
  do 12 (split; [conc|]).
  eapply par_not; [apply (@kk_hemm_left_actual gops) with (a := gm [[(0,1)]]%Z) (b := gm [[(1,0)]]%Z); conc|].
  intros m' [H1 _] (u & m2 & Hr & Hs). destruct (H1 0 0) as (v & Hv & E); [simpl; lia..|exact I|].
  change (m' 2 = Some v) in Hv. differ Hr Hs Hv E 2.
Qed.
Print Assumptions C56_kk_hemm_left_refuted.
Example C56_symm_case :
  let m : mem zops := fun a => if a =? 1 then None else mem_of [1;0;2;4; 5;6; 7;8; 100;200;300;400; 0;0;0;0]%Z a in
  let A := row_major 0 2 2 in let B := row_major 4 2 2 in let E := row_major 8 2 2 in let C := row_major 12 2 2 in
  par_succeeds (kk_symmetric_matrix_left_product A Lower B C) m (fun m' =>
    mat_holds m' C (zm [[19;22];[38;44]]%Z) /\ changes_only m m' (mcells C)) /\
  par_same_as (kk_symmetric_matrix_left_product A Lower B C) (symmetric_matrix_product_left A Lower B C) m /\
  par_succeeds (kk_symmetric_matrix_left_product_upd A Lower B E E) m (fun m' =>
    mat_holds m' E (zm [[119;222];[338;444]]%Z) /\ changes_only m m' (mcells E)) /\
  par_succeeds (kk_symmetric_matrix_right_product A Lower B C) m (fun m' =>
    mat_holds m' C (zm [[17;34];[23;46]]%Z) /\ changes_only m m' (mcells C)) /\
  par_same_as (kk_symmetric_matrix_right_product A Lower B C) (symmetric_matrix_product_right B A Lower C) m /\
  par_succeeds (kk_symmetric_matrix_right_product_upd A Lower B E C) m (fun m' =>
    mat_holds m' C (zm [[117;234];[323;446]]%Z) /\ changes_only m m' (mcells C)).
Proof.
  intros. repeat apply Logic.conj.
  - eapply par_mono; [apply C56_kk_symm_left with (a := zm [[1;0];[2;4]]%Z) (b := zm [[5;6];[7;8]]%Z); conc|].
    intros m' [H1 H2]; split; auto. elems2 H1.
  - apply C56_kk_symm_left_same_as_inline with (a := zm [[1;0];[2;4]]%Z) (b := zm [[5;6];[7;8]]%Z); conc.
  - eapply par_mono; [apply C56_kk_symm_left_upd with (a := zm [[1;0];[2;4]]%Z) (b := zm [[5;6];[7;8]]%Z) (e := zm [[100;200];[300;400]]%Z); conc|].
    intros m' [H1 H2]; split; auto. elems2 H1.
  - eapply par_mono; [apply C56_kk_symm_right with (a := zm [[1;0];[2;4]]%Z) (b := zm [[5;6];[7;8]]%Z); conc|].
    intros m' [H1 H2]; split; auto. elems2 H1.
  - apply C56_kk_symm_right_same_as_inline with (a := zm [[1;0];[2;4]]%Z) (b := zm [[5;6];[7;8]]%Z); conc.
  - eapply par_mono; [apply C56_kk_symm_right_upd with (a := zm [[1;0];[2;4]]%Z) (b := zm [[5;6];[7;8]]%Z) (e := zm [[100;200];[300;400]]%Z); conc|].
    intros m' [H1 H2]; split; auto. elems2 H1.
Qed.
Example C56_hemm_case :
  let m : mem gops := mem_of [(1,0);(2,3);(9,9);(4,0); (1,0);(0,1); (5,0);(6,0); (0,0);(0,0)]%Z in
  let A := row_major 0 2 2 in let B := row_major 4 2 1 in let Br := row_major 4 1 2 in
  let E := row_major 6 2 1 in let C := row_major 8 2 1 in let Er := row_major 6 1 2 in let Cr := row_major 8 1 2 in
  par_succeeds (kk_hermitian_matrix_left_product A Upper B C) m (fun m' =>
    mat_holds m' C (gm [[(-2,2)];[(2,1)]]%Z) /\ changes_only m m' (mcells C)) /\
  par_same_as (kk_hermitian_matrix_left_product A Upper B C) (hermitian_matrix_product_left A Upper B C) m /\
  par_succeeds (kk_hermitian_matrix_left_product_upd A Upper B E C) m (fun m' =>
    mat_holds m' C (gm [[(3,2)];[(8,1)]]%Z) /\ changes_only m m' (mcells C)) /\
  par_succeeds (kk_hermitian_matrix_right_product A Upper Br Cr) m (fun m' =>
    mat_holds m' Cr (gm [[(4,2);(2,7)]]%Z) /\ changes_only m m' (mcells Cr)) /\
  par_succeeds (kk_hermitian_matrix_right_product_upd A Upper Br Er Cr) m (fun m' =>
    mat_holds m' Cr (gm [[(9,2);(8,7)]]%Z) /\ changes_only m m' (mcells Cr)).
Proof.
  intros. set (a := gm [[(1,0);(2,3)];[(9,9);(4,0)]]%Z).
  assert (Hre : forall i, i < ext0 A -> conj (a i i) = re (a i i)) by (intros [|[|i]] Hi; [reflexivity..|simpl in Hi; lia]).
  repeat apply Logic.conj.
  - eapply par_mono; [apply C56_kk_hemm_left_partial with (a := a) (b := gm [[(1,0)];[(0,1)]]%Z); try exact Hre; conc|].
    intros m' [H1 H2]; split; auto. elems2 H1.
  - apply C56_kk_hemm_left_same_as_inline_partial with (a := a) (b := gm [[(1,0)];[(0,1)]]%Z); try exact Hre; conc.
  - eapply par_mono; [apply C56_kk_hemm_left_upd_partial with (a := a) (b := gm [[(1,0)];[(0,1)]]%Z) (e := gm [[(5,0)];[(6,0)]]%Z); try exact Hre; conc|].
    intros m' [H1 H2]; split; auto. elems2 H1.
  - eapply par_mono; [apply C56_kk_hemm_right_partial with (a := a) (b := gm [[(1,0);(0,1)]]%Z); try exact Hre; conc|].
    intros m' [H1 H2]; split; auto. elems2 H1.
  - eapply par_mono; [apply C56_kk_hemm_right_upd_partial with (a := a) (b := gm [[(1,0);(0,1)]]%Z) (e := gm [[(5,0);(6,0)]]%Z); try exact Hre; conc|].
    intros m' [H1 H2]; split; auto. elems2 H1.
Qed.

(** * C55 *)
(** Full statement: whatever the layout of the arguments that the call accepts, the algorithm reads and writes the
    elements of the mdspans.  True for contiguous vectors and for layout_left / layout_right matrices: *)
Theorem C55_views_partial : forall (O : ops) (x : vec O) (A : mat O),
  plain_v x -> plain_m A ->
  (forall i, i < vext x -> vaddr (view_v x) i = vaddr x i) /\ vext (view_v x) = vext x /\ vacc (view_v x) = vacc x /\
  forall k : mat O -> par O, exists Av, view_m A k = k Av /\
    ext0 Av = ext0 A /\ ext1 Av = ext1 A /\ macc Av = macc A /\ forall i j, maddr Av i j = maddr A i j.
Proof.
  intros O x A [Hd Ho] PA. split; [|split; [|split]]; auto.
  - intros i Hi. unfold vaddr, view_v; simpl. rewrite Ho; auto.
  - intros k. exists A. split; auto. apply view_m_plain; auto.
Qed.
Print Assumptions C55_views_partial.
(** The view of a vector has the right elements only if the vector is contiguous, and the view of a
    layout_transpose matrix is the view of the matrix before transposition: element (i,j) of the view is
    element (j,i) of the mdspan. *)
Theorem C55_vector_view_faithful_iff_contiguous : forall (O : ops) (x : vec O),
  (forall i, i < vext x -> vaddr (view_v x) i = vaddr x i) <-> (forall i, i < vext x -> voff x i = i).
Proof.
  intros O x. unfold vaddr, view_v; simpl. split; intros H i Hi; specialize (H i Hi); lia.
Qed.
Print Assumptions C55_vector_view_faithful_iff_contiguous.
Theorem C55_transposed_view_is_untransposed_partial : forall (O : ops) (A : mat O) l (k : mat O -> par O),
  mlay A = LTrans l -> l = LLeft \/ l = LRight ->
  exists Av, view_m A k = k Av /\ ext0 Av = ext1 A /\ ext1 Av = ext0 A /\ forall i j, maddr Av j i = maddr A i j.
Proof.
  intros O A l k HA Hl. unfold view_m. rewrite HA.
  destruct Hl as [-> | ->]; eexists; split; try reflexivity; repeat split; intros; unfold maddr; rewrite HA; simpl; lia.
Qed.
Print Assumptions C55_transposed_view_is_untransposed_partial.
(** Rank-1 update with x = every second element of [1;9;3]: the element 9 is used, 3 is not. *)
Theorem C55_strided_vector_refuted : exists (m : mem zops) x y A a f g,
  vext x = ext0 A /\ vext y = ext1 A /\ vacc x = ADefault /\ plain_v y /\ plain_m A /\
  mat_holds m A a /\ vec_holds m x f /\ vec_holds m y g /\ mwritable A /\
  disjoint (vcells x) (mcells A) /\ disjoint (vcells y) (mcells A) /\
  ~ par_succeeds (kk_matrix_rank_1_update x y A) m (fun m' => mat_holds m' A (fun i j => a i j + f i * g j)) /\
  succeeds (matrix_rank_1_update x y A) m (fun _ m' => mat_holds m' A (fun i j => a i j + f i * g j)).
Proof.
  exists (mem_of [0;0; 1;9;3; 1]%Z), (Vec 2 2 (fun i => 2 * i)%nat ADefault), (vec_at 5 1), (row_major 0 2 1),
    (zm [[0];[0]]%Z), (zv [1;3]%Z), (zv [1]%Z).
  do 11 (split; [conc|]). split.
  - change (~ par_succeeds (kk_matrix_rank_1_update (vec_at 2 2) (vec_at 5 1) (row_major 0 2 1)) (mem_of [0;0; 1;9;3; 1]%Z : mem zops)
      (fun m' => mat_holds m' (row_major 0 2 1) (fun i j => zm [[0];[0]]%Z i j + zv [1;3]%Z i * zv [1]%Z j))).
    eapply par_not; [apply C46_kk_ger with (a := zm [[0];[0]]%Z) (f := zv [1;9]%Z) (g := zv [1]%Z); conc|].
    intros m' [H1 _] H2. destruct (H1 1 0) as (v & Hv & E); [simpl; lia..|exact I|].
    destruct (H2 1 0) as (v' & Hv' & E'); [simpl; lia..|exact I|].
    rewrite Hv in Hv'. injection Hv' as <-. vm_compute in E, E'. subst v. discriminate.
  - eapply wp_conseq; [apply (@PfRank.ger_ok zops) with (a := zm [[0];[0]]%Z) (f := zv [1;3]%Z) (g := zv [1]%Z); conc|].
    intros _ m' [H1 _]; exact H1.
Qed.
Print Assumptions C55_strided_vector_refuted.
(** Rank-1 update of transposed(A0): the update goes to the transposed position. *)
Theorem C55_transposed_matrix_refuted : exists (m : mem zops) x y A a f g,
  vext x = ext0 A /\ vext y = ext1 A /\ plain_v x /\ plain_v y /\ macc A = ADefault /\ mlay A = LTrans LRight /\
  mat_holds m A a /\ vec_holds m x f /\ vec_holds m y g /\ mwritable A /\
  disjoint (vcells x) (mcells A) /\ disjoint (vcells y) (mcells A) /\
  ~ par_succeeds (kk_matrix_rank_1_update x y A) m (fun m' => mat_holds m' A (fun i j => a i j + f i * g j)) /\
  succeeds (matrix_rank_1_update x y A) m (fun _ m' => mat_holds m' A (fun i j => a i j + f i * g j)).
Proof.
  exists (mem_of [0;0;0;0; 1;0; 0;1]%Z), (vec_at 4 2), (vec_at 6 2), (Mat 0 2 2 (LTrans LRight) ADefault),
    (zm [[0;0];[0;0]]%Z), (zv [1;0]%Z), (zv [0;1]%Z).
  do 12 (split; [conc|]). split.
  - assert (K : par_succeeds (kk_matrix_rank_1_update (vec_at 4 2) (vec_at 6 2) (row_major 0 2 2))
        (mem_of [0;0;0;0; 1;0; 0;1]%Z : mem zops) (fun m' => mat_holds m' (row_major 0 2 2)
          (fun i j => zm [[0;0];[0;0]]%Z i j + zv [1;0]%Z i * zv [0;1]%Z j) /\
          changes_only (mem_of [0;0;0;0; 1;0; 0;1]%Z : mem zops) m' (mcells (@row_major zops 0 2 2))))
      by (apply C46_kk_ger with (a := zm [[0;0];[0;0]]%Z) (f := zv [1;0]%Z) (g := zv [0;1]%Z); conc).
    eapply par_not; [exact K|].
    intros m' [H1 _] H2. destruct (H1 0 1) as (v & Hv & E); [simpl; lia..|exact I|].
    destruct (H2 1 0) as (v' & Hv' & E'); [simpl; lia..|exact I|].
    change (m' 1 = Some v) in Hv. change (m' 1 = Some v') in Hv'.
    rewrite Hv in Hv'. injection Hv' as <-. vm_compute in E, E'. subst v. discriminate.
  - eapply wp_conseq; [apply (@PfRank.ger_ok zops) with (a := zm [[0;0];[0;0]]%Z) (f := zv [1;0]%Z) (g := zv [0;1]%Z); conc|].
    intros _ m' [H1 _]; exact H1.
Qed.
Print Assumptions C55_transposed_matrix_refuted.
Example C55_case :
  let x : vec zops := Vec 3 2 (fun i => i) ADefault in let A : mat zops := Mat 7 2 3 LLeft ADefault in
  plain_v x /\ plain_m A /\ vaddr (view_v x) 1 = 4 /\
  view_m A (fun Av => PFor (maddr Av 1 2) (fun _ => Ret tt) PDone) = PFor 12 (fun _ => Ret tt) PDone.
Proof. intros. repeat split; auto. Qed.
