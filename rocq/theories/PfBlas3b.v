(** Further BLAS-3 consequences: products through transposed views, solve/multiply inversion, real
    diagonals after Hermitian rank-k updates, index-type effects in the solves. *)
From Coq Require Import List Arith ZArith Lia Bool.
From Verif Require Import Mem Scalar View Spec Wp Loops Sums Alg Idx Blas1 Blas2 Blas3 PfBlas1 PfBlas2 PfView PfTrsv PfRank PfBlas2b PfBlas3 PfTrsm.
Set Implicit Arguments.
Local Open Scope sc_scope.

Lemma tri_unique_r : forall (O : ops), ring_laws O -> forall t d n a (f g : nat -> O),
  (d = Explicit -> forall i (u v : O), i < n -> u * a i i = v * a i i -> u = v) ->
  (forall j, j < n -> bigsum n (fun k => f k * tri_of t d a k j) = bigsum n (fun k => g k * tri_of t d a k j)) ->
  forall j, j < n -> f j = g j.
Proof.
  intros O L t d n a f g Hc H j Hj.
  apply (@tri_unique (oop (O := O)) (oop_ring L) (flip t) d n (fun i j => a j i) f g); auto.
  intros i Hi. specialize (H i Hi). unfold bigsum in *. simpl.
  etransitivity; [|etransitivity; [exact H|]].
  - apply (@sum_from_ext O). intros k Hk. change (@tri_of oop) with (@tri_of O). rewrite tri_of_flip. auto.
  - apply (@sum_from_ext O). intros k Hk. change (@tri_of oop) with (@tri_of O). rewrite tri_of_flip. auto.
Qed.

Section Pf.
Context {O : ops}.

Lemma transposed_cells : forall fixp (A At : mat O) a,
  transposed fixp A = Some At -> layout_ok (mlay A) (ext0 A) (ext1 A) -> mcells At a <-> mcells A a.
Proof.
  intros fixp A At a H Hok. destruct (transposed_ext fixp A H) as (E0 & E1 & _ & _). split.
  - intros (j & i & Hj & Hi & _ & ->). rewrite E0 in Hj; rewrite E1 in Hi. exists i, j. repeat split; auto.
    apply (transposed_maddr fixp A H); auto.
  - intros (i & j & Hi & Hj & _ & ->). exists j, i. rewrite E0, E1. repeat split; auto.
    symmetry. apply (transposed_maddr fixp A H); auto.
Qed.
Lemma transposed_holds_rev : forall fixp (m : mem O) A At a,
  transposed fixp A = Some At -> layout_ok (mlay A) (ext0 A) (ext1 A) ->
  mat_holds m At (fun j i => a i j) -> mat_holds m A a.
Proof.
  intros fixp m A At a H Hok HA i j Hi Hj _. destruct (transposed_ext fixp A H) as (E0 & E1 & Ea & _).
  destruct (HA j i) as (v & Hv & Hv'); [lia|lia|exact I|].
  exists v. rewrite <- (transposed_maddr fixp A H Hok), <- Ea by auto. auto.
Qed.

Lemma gemm_transposed : forall fa fb fc (m : mem O) A B C At Bt Ct a b,
  mul_commutes O ->
  transposed fa A = Some At -> transposed fb B = Some Bt -> transposed fc C = Some Ct ->
  layout_ok (mlay A) (ext0 A) (ext1 A) -> layout_ok (mlay B) (ext0 B) (ext1 B) -> layout_ok (mlay C) (ext0 C) (ext1 C) ->
  ext0 C = ext0 A -> ext1 A = ext0 B -> ext1 C = ext1 B ->
  mat_holds m A a -> mat_holds m B b -> mwritable C -> allocated m (mcells C) ->
  disjoint (mcells A) (mcells C) -> disjoint (mcells B) (mcells C) ->
  succeeds (matrix_product Bt At Ct) m (fun _ m' =>
    mat_holds m' C (fun i j => bigsum (ext1 A) (fun k => a i k * b k j)) /\ changes_only m m' (mcells C)).
Proof.
  intros fa fb fc m A B C At Bt Ct a b Cm HAt HBt HCt LA LB LC H1 H2 H3 HA HB Hw Hal HdA HdB.
  destruct (transposed_ext _ _ HAt) as (EA0 & EA1 & _ & _).
  destruct (transposed_ext _ _ HBt) as (EB0 & EB1 & _ & _).
  destruct (transposed_ext _ _ HCt) as (EC0 & EC1 & _ & _).
  eapply wp_conseq.
  { apply gemm_ok with (a := fun j i => b i j) (b := fun j i => a i j); try lia.
    - eapply transposed_holds with (P := all2); eauto.
    - eapply transposed_holds with (P := all2); eauto.
    - eapply transposed_writable with (P := all2); eauto.
    - intros c Hc. apply Hal. apply (transposed_cells _ _ c HCt LC); auto.
    - intros c K1 K2. apply (HdB c); [apply (transposed_cells _ _ c HBt LB)|apply (transposed_cells _ _ c HCt LC)]; auto.
    - intros c K1 K2. apply (HdA c); [apply (transposed_cells _ _ c HAt LA)|apply (transposed_cells _ _ c HCt LC)]; auto. }
  intros [] m' [K1 K2]. split.
  - eapply transposed_holds_rev; eauto. eapply mat_holds_on_ext; [|exact K1].
    intros j i Hj Hi _. replace (ext1 Bt) with (ext1 A) by lia. apply sum_from_ext. intros k Hk. apply Cm.
  - intros c Hc. apply K2. intros K. apply Hc. apply (transposed_cells _ _ c HCt LC); auto.
Qed.

(** * Solving undoes multiplying *)
Lemma restore_m : forall (m m' : mem O) X f, macc X = ADefault ->
  mat_holds m X f -> mat_holds m' X f -> changes_only m m' (mcells X) -> same_memory m m'.
Proof.
  intros m m' X f Hd H1 H2 Hc a.
  destruct (in_dec Nat.eq_dec a (map (fun p => maddr X (fst p) (snd p)) (list_prod (seq 0 (ext0 X)) (seq 0 (ext1 X))))) as [Hin|Hn].
  - apply in_map_iff in Hin. destruct Hin as ([i j] & <- & Hi). apply in_prod_iff in Hi. rewrite !in_seq in Hi.
    destruct (H1 i j) as (v & Hv & Hv'); [lia|lia|exact I|]. destruct (H2 i j) as (w & Hw & Hw'); [lia|lia|exact I|].
    simpl. rewrite Hd in *; simpl in *. congruence.
  - apply Hc. intros (i & j & Hi & Hj & _ & ->). apply Hn.
    apply (in_map (fun p => maddr X (fst p) (snd p)) _ (i, j)). apply in_prod; apply in_seq; lia.
Qed.
Lemma mat_holds_alloc : forall (m : mem O) X f, mat_holds m X f -> allocated m (mcells X).
Proof.
  intros m X f H a (i & j & Hi & Hj & HP & ->). destruct (H i j Hi Hj HP) as (v & -> & _). discriminate.
Qed.
Lemma div_ok_r_nonzero : div_laws O -> forall d n (a : nat -> nat -> O),
  (d = Explicit -> forall i, i < n -> a i i <> zero) -> div_ok_r div d n a.
Proof. intros D d n a H Hd i s Hi. apply (div_r D); auto. Qed.
Lemma cancels_r : ring_laws O -> div_laws O -> forall d n (a : nat -> nat -> O),
  (d = Explicit -> forall i, i < n -> a i i <> zero) ->
  d = Explicit -> forall i (u v : O), i < n -> u * a i i = v * a i i -> u = v.
Proof.
  intros L D d n a H Hd i u v Hi E.
  assert (a i i * (one / a i i) = one) as K by (apply (div_l D); auto).
  rewrite <- (mul_1_r L u), <- (mul_1_r L v), <- K, !(mul_assoc L), E. auto.
Qed.

Lemma trsm_after_trmm_left : forall ty (m : mem O) A t d C a c,
  ring_laws O -> div_laws O ->
  fits ty (ext0 A) -> (ext0 A = 0 -> t = Upper -> ty <> U32) ->
  ext0 A = ext1 A -> ext0 C = ext0 A ->
  mat_holds_on m A (stored t d) a -> mat_holds m C c -> mwritable C ->
  disjoint (mcells_on A (stored t d)) (mcells C) ->
  (d = Explicit -> forall i, i < ext0 A -> a i i <> zero) ->
  succeeds (bind (triangular_matrix_left_product A t d C)
              (fun _ => triangular_matrix_matrix_left_solve ty A t d C C)) m (fun _ m' => same_memory m m').
Proof.
  intros ty m A t d C a c L D Hf Hz Hsq HC HA Hv Hw Hd Hnz.
  apply wp_bind. eapply wp_conseq; [eapply trmm_left_inplace_ok; eauto|]. intros [] m1 [H1 H2].
  assert (mat_holds_on m1 A (stored t d) a) as HA1 by (eapply mat_holds_frame; eauto).
  eapply wp_conseq.
  { eapply trsm_left_ok with (a := a) (B := C) (X := C); eauto using mat_holds_alloc, div_ok_nonzero.
    right; intros ? ? ? ?; reflexivity. }
  intros [] m2 [(g & Hg & E) H3].
  eapply restore_m with (f := c); eauto; [apply Hw| |eapply changes_only_trans; eauto].
  eapply mat_holds_on_ext; [|exact Hg]. intros i j Hi Hj _.
  apply (@tri_unique O L t d (ext0 A) a (fun i => g i j) (fun i => c i j)); [apply cancels_div; auto| |lia].
  intros k Hk. rewrite E by lia. rewrite Hsq. auto.
Qed.
Lemma trmm_after_trsm_left : forall ty (m : mem O) A t d C a c,
  ring_laws O -> div_laws O ->
  fits ty (ext0 A) -> (ext0 A = 0 -> t = Upper -> ty <> U32) ->
  ext0 A = ext1 A -> ext0 C = ext0 A ->
  mat_holds_on m A (stored t d) a -> mat_holds m C c -> mwritable C ->
  disjoint (mcells_on A (stored t d)) (mcells C) ->
  (d = Explicit -> forall i, i < ext0 A -> a i i <> zero) ->
  succeeds (bind (triangular_matrix_matrix_left_solve ty A t d C C)
              (fun _ => triangular_matrix_left_product A t d C)) m (fun _ m' => same_memory m m').
Proof.
  intros ty m A t d C a c L D Hf Hz Hsq HC HA Hv Hw Hd Hnz.
  apply wp_bind. eapply wp_conseq.
  { eapply trsm_left_ok with (a := a) (B := C) (X := C); eauto using mat_holds_alloc, div_ok_nonzero.
    right; intros ? ? ? ?; reflexivity. }
  intros [] m1 [(g & Hg & E) H3].
  assert (mat_holds_on m1 A (stored t d) a) as HA1 by (eapply mat_holds_frame; eauto).
  eapply wp_conseq; [eapply trmm_left_inplace_ok; eauto|]. intros [] m2 [H1 H2].
  eapply restore_m with (f := c); eauto; [apply Hw| |eapply changes_only_trans; eauto].
  eapply mat_holds_on_ext; [|exact H1]. intros i j Hi Hj _. cbv beta. rewrite <- Hsq. apply E; lia.
Qed.
Lemma trsm_after_trmm_right : forall ty (m : mem O) A t d C a c,
  ring_laws O -> div_laws O ->
  (t = Lower -> fits (make_signed ty) (ext0 A)) ->
  ext0 A = ext1 A -> ext1 C = ext0 A ->
  mat_holds_on m A (stored t d) a -> mat_holds m C c -> mwritable C ->
  disjoint (mcells_on A (stored t d)) (mcells C) ->
  (d = Explicit -> forall i, i < ext0 A -> a i i <> zero) ->
  succeeds (bind (triangular_matrix_right_product A t d C)
              (fun _ => triangular_matrix_matrix_right_solve ty A t d C C)) m (fun _ m' => same_memory m m').
Proof.
  intros ty m A t d C a c L D Hf Hsq HC HA Hv Hw Hd Hnz.
  apply wp_bind. eapply wp_conseq; [eapply trmm_right_inplace_ok; eauto|]. intros [] m1 [H1 H2].
  assert (mat_holds_on m1 A (stored t d) a) as HA1 by (eapply mat_holds_frame; eauto).
  eapply wp_conseq.
  { eapply trsm_right_ok with (a := a) (B := C) (X := C); eauto using mat_holds_alloc, div_ok_r_nonzero.
    right; intros ? ? ? ?; reflexivity. }
  intros [] m2 [(g & Hg & E) H3].
  eapply restore_m with (f := c); eauto; [apply Hw| |eapply changes_only_trans; eauto].
  eapply mat_holds_on_ext; [|exact Hg]. intros i j Hi Hj _.
  apply (@tri_unique_r O L t d (ext0 A) a (fun k => g i k) (fun k => c i k)); [apply cancels_r; auto| |lia].
  intros k Hk. rewrite E by lia. rewrite Hsq. auto.
Qed.
Lemma trmm_after_trsm_right : forall ty (m : mem O) A t d C a c,
  ring_laws O -> div_laws O ->
  (t = Lower -> fits (make_signed ty) (ext0 A)) ->
  ext0 A = ext1 A -> ext1 C = ext0 A ->
  mat_holds_on m A (stored t d) a -> mat_holds m C c -> mwritable C ->
  disjoint (mcells_on A (stored t d)) (mcells C) ->
  (d = Explicit -> forall i, i < ext0 A -> a i i <> zero) ->
  succeeds (bind (triangular_matrix_matrix_right_solve ty A t d C C)
              (fun _ => triangular_matrix_right_product A t d C)) m (fun _ m' => same_memory m m').
Proof.
  intros ty m A t d C a c L D Hf Hsq HC HA Hv Hw Hd Hnz.
  apply wp_bind. eapply wp_conseq.
  { eapply trsm_right_ok with (a := a) (B := C) (X := C); eauto using mat_holds_alloc, div_ok_r_nonzero.
    right; intros ? ? ? ?; reflexivity. }
  intros [] m1 [(g & Hg & E) H3].
  assert (mat_holds_on m1 A (stored t d) a) as HA1 by (eapply mat_holds_frame; eauto).
  eapply wp_conseq; [eapply trmm_right_inplace_ok; eauto|]. intros [] m2 [H1 H2].
  eapply restore_m with (f := c); eauto; [apply Hw| |eapply changes_only_trans; eauto].
  eapply mat_holds_on_ext; [|exact H1]. intros i j Hi Hj _. cbv beta. rewrite <- Hsq. apply E; lia.
Qed.

(** * Field versions of the solves *)
Lemma trsm_left_field_ok : forall ty (m : mem O) A t d B X a b,
  ring_laws O -> div_laws O ->
  fits ty (ext0 A) -> (ext0 A = 0 -> t = Upper -> ty <> U32) ->
  ext0 A = ext1 A -> ext0 B = ext0 A -> ext0 X = ext0 A -> ext1 X = ext1 B ->
  mat_holds_on m A (stored t d) a -> mat_holds m B b -> mwritable X -> allocated m (mcells X) ->
  disjoint (mcells_on A (stored t d)) (mcells X) -> disjoint_or_aligned_m B X ->
  (d = Explicit -> forall i, i < ext0 A -> a i i <> zero) ->
  succeeds (triangular_matrix_matrix_left_solve ty A t d B X) m (fun _ m' =>
    (exists x, mat_holds m' X x /\
      forall i j, i < ext0 X -> j < ext1 X -> bigsum (ext0 A) (fun k => tri_of t d a i k * x k j) = b i j)
    /\ changes_only m m' (mcells X)).
Proof. intros. apply trsm_left_ok; auto using div_ok_nonzero. Qed.

Lemma trsm_right_field_ok : forall ty (m : mem O) A t d B X a b,
  ring_laws O -> div_laws O ->
  (t = Lower -> fits (make_signed ty) (ext0 A)) ->
  ext0 A = ext1 A -> ext1 B = ext0 A -> ext1 X = ext0 A -> ext0 X = ext0 B ->
  mat_holds_on m A (stored t d) a -> mat_holds m B b -> mwritable X -> allocated m (mcells X) ->
  disjoint (mcells_on A (stored t d)) (mcells X) -> disjoint_or_aligned_m B X ->
  (d = Explicit -> forall i, i < ext0 A -> a i i <> zero) ->
  succeeds (triangular_matrix_matrix_right_solve ty A t d B X) m (fun _ m' =>
    (exists x, mat_holds m' X x /\
      forall i j, i < ext0 X -> j < ext1 X -> bigsum (ext0 A) (fun k => x i k * tri_of t d a k j) = b i j)
    /\ changes_only m m' (mcells X)).
Proof. intros. apply trsm_right_ok; auto using div_ok_r_nonzero. Qed.

Lemma trsm_right_index_ok : forall ty (m : mem O) A t d B X a b,
  ring_laws O -> div_laws O ->
  fits ty (ext0 A) ->
  (t = Upper \/ In ty (I8 :: I16 :: I32 :: I64 :: U64 :: nil)%list \/ (Z.of_nat (ext0 A) <= max_of (make_signed ty))%Z) ->
  ext0 A = ext1 A -> ext1 B = ext0 A -> ext1 X = ext0 A -> ext0 X = ext0 B ->
  mat_holds_on m A (stored t d) a -> mat_holds m B b -> mwritable X -> allocated m (mcells X) ->
  disjoint (mcells_on A (stored t d)) (mcells X) -> disjoint_or_aligned_m B X ->
  (d = Explicit -> forall i, i < ext0 A -> a i i <> zero) ->
  succeeds (triangular_matrix_matrix_right_solve ty A t d B X) m (fun _ m' =>
    (exists x, mat_holds m' X x /\
      forall i j, i < ext0 X -> j < ext1 X -> bigsum (ext0 A) (fun k => x i k * tri_of t d a k j) = b i j)
    /\ changes_only m m' (mcells X)).
Proof.
  intros ty m A t d B X a b L D [Hf1 Hf2] Ht. intros. apply trsm_right_field_ok; auto.
  intros ->. destruct Ht as [Ht|[Ht|Ht]]; [discriminate| |split; auto].
  simpl in Ht. destruct Ht as [<-|[<-|[<-|[<-|[<-|[]]]]]]; split; auto.
Qed.

(** * Index types *)
Lemma run_for_skip : forall (m : mem O) lo hi (body : nat -> prog O unit),
  (forall i, run (body i) m = Ok tt m) -> run (for_range lo hi body) m = Ok tt m.
Proof.
  intros m lo hi body H. unfold for_range. generalize (hi - lo)%nat as n. intros n. revert lo.
  induction n as [|n IH]; intros lo; simpl; auto. rewrite run_bind, H. auto.
Qed.
(** Extents in the upper half of a narrow unsigned index type: the signed start value is negative. *)
Lemma trsm_right_narrow : forall ty (m : mem O) A d B X,
  (ty = U8 \/ ty = U16 \/ ty = U32) ->
  (max_of (make_signed ty) + 1 < Z.of_nat (ext1 A) <= max_of ty)%Z ->
  run (triangular_matrix_matrix_right_solve ty A Lower d B X) m = Ok tt m.
Proof.
  intros ty m A d B X Hty Hn. simpl. unfold trsm_lower_right.
  assert (descending_start_signed ty (ext1 A) < 0)%Z as Hs.
  { unfold descending_start_signed, wrap, promote, make_signed, max_of, bits, is_signed in *.
    destruct Hty as [-> | [-> | ->]]; simpl in *.
    all: change (2 ^ 8)%Z with 256%Z in *; change (2 ^ 16)%Z with 65536%Z in *; change (2 ^ 32)%Z with 4294967296%Z in *;
         change (2 ^ 7)%Z with 128%Z in *; change (2 ^ 15)%Z with 32768%Z in *; change (2 ^ 31)%Z with 2147483648%Z in *.
    all: repeat match goal with |- context [(?a <? ?b)%Z] => destruct (Z.ltb_spec a b) end;
         Z.div_mod_to_equations; lia. }
  replace (Z.to_nat (descending_start_signed ty (ext1 A) + 1)) with 0 by lia.
  apply run_for_skip. reflexivity.
Qed.

Lemma trsm_left_empty_u32 : forall (m : mem O) A d B X,
  ext0 A = 0 -> ext0 B = 0 -> 0 < ext1 B ->
  run (triangular_matrix_matrix_left_solve U32 A Upper d B X) m = Err OutOfBounds m.
Proof.
  intros m A d B X H0 HB0 HB1. simpl. unfold trsm_upper_left. rewrite H0.
  destruct (ext1 B) as [|n] eqn:E; [lia|].
  remember (Z.to_nat (descending_start U32 0 + 1)) as N eqn:HN. unfold for_range. simpl. rewrite run_bind.
  rewrite for_down_pos with (e := OutOfBounds); auto; [|rewrite HN].
  - intros i. unfold mget at 1. rewrite HB0. reflexivity.
  - change (descending_start U32 0 + 1)%Z with 4294967296%Z. rewrite <- Z2Nat.inj_0. apply Z2Nat.inj_lt; lia.
Qed.
Lemma trsm_left_empty_ok : forall ty (m : mem O) A t d B X,
  ext0 A = 0 -> (0 < ext1 B -> t = Upper -> ty <> U32) ->
  run (triangular_matrix_matrix_left_solve ty A t d B X) m = Ok tt m.
Proof.
  intros ty m A t d B X H0 H32. destruct t; simpl.
  - unfold trsm_lower_left. rewrite H0. apply run_for_skip. reflexivity.
  - unfold trsm_upper_left. destruct (ext1 B) as [|n] eqn:E; [reflexivity|].
    rewrite H0, descending_start_ok; [|unfold fits; destruct ty; vm_compute; split; congruence|intros _; apply H32; auto; lia].
    apply run_for_skip. reflexivity.
Qed.
Lemma trsm_right_empty_ok : forall ty (m : mem O) A t d B X,
  ext1 A = 0 -> run (triangular_matrix_matrix_right_solve ty A t d B X) m = Ok tt m.
Proof.
  intros ty m A t d B X H0. destruct t; simpl.
  - unfold trsm_lower_right. rewrite H0, descending_start_signed_ok by (unfold fits; destruct ty; vm_compute; split; congruence).
    apply run_for_skip. reflexivity.
  - unfold trsm_upper_right. rewrite H0. apply run_for_skip. reflexivity.
Qed.

(** * Real diagonals *)
Lemma sum_real : conj_laws O -> forall (e : nat -> O) lo n s,
  conj s = s -> (forall k, conj (e k) = e k) -> conj (sum_from s lo n e) = sum_from s lo n e.
Proof.
  intros K e lo n s Hs He. revert lo s Hs. unfold sum_from. induction n as [|n IH]; intros lo s Hs; simpl; auto.
  apply IH. rewrite (conj_add K), Hs, He; auto.
Qed.
Lemma herk_real : forall (m : mem O) A C t a c,
  conj_laws O ->
  ext0 C = ext1 C -> ext0 A = ext0 C ->
  mat_holds m A a -> mat_holds_on m C (in_tri t) c -> mwritable_on C (in_tri t) ->
  disjoint (mcells A) (mcells_on C (in_tri t)) ->
  succeeds (hermitian_matrix_rank_k_update A C t) m (fun _ m' => real_diagonal m' C).
Proof.
  intros m A C t a c K Hsq HAC HA HC Hw Hd. eapply wp_conseq; [eapply herk_ok; eauto|].
  intros [] m' [H _]. eapply real_diag_holds; [exact H|]. intros i. cbv beta. apply sum_real; auto.
  - rewrite herm_of_diag. apply (conj_re K).
  - intros k. rewrite (conj_mul K), (conj_conj K); auto.
Qed.
Lemma herk_alpha_real : forall (m : mem O) alpha A C t a c,
  ring_laws O -> conj_laws O -> mul_commutes O -> conj alpha = alpha ->
  ext0 C = ext1 C -> ext0 A = ext0 C ->
  mat_holds m A a -> mat_holds_on m C (in_tri t) c -> mwritable_on C (in_tri t) ->
  disjoint (mcells A) (mcells_on C (in_tri t)) ->
  succeeds (hermitian_matrix_rank_k_update_alpha alpha A C t) m (fun _ m' => real_diagonal m' C).
Proof.
  intros m alpha A C t a c L K Cm Ha Hsq HAC HA HC Hw Hd. eapply wp_conseq; [eapply herk_alpha_ok; eauto|].
  intros [] m' [H _]. eapply real_diag_holds; [exact H|]. intros i. cbv beta. apply sum_real; auto.
  - rewrite herm_of_diag. apply (conj_re K).
  - intros k. rewrite !(conj_mul K), (conj_conj K), Ha.
    rewrite (Cm (conj (a i k))), (mul_assoc L). f_equal. apply Cm.
Qed.
Lemma her2k_real : forall (m : mem O) A B C t a b c,
  add_laws O -> conj_laws O ->
  ext0 C = ext1 C -> ext0 A = ext0 C -> ext0 B = ext0 C -> ext1 B = ext1 A ->
  mat_holds m A a -> mat_holds m B b -> mat_holds_on m C (in_tri t) c -> mwritable_on C (in_tri t) ->
  disjoint (mcells A) (mcells_on C (in_tri t)) -> disjoint (mcells B) (mcells_on C (in_tri t)) ->
  succeeds (hermitian_matrix_rank_2k_update A B C t) m (fun _ m' => real_diagonal m' C).
Proof.
  intros m A B C t a b c LA K Hsq HAC HBC HBA HA HB HC Hw HdA HdB. eapply wp_conseq; [eapply her2k_ok; eauto|].
  intros [] m' [H _]. eapply real_diag_holds; [exact H|]. intros i. cbv beta. apply sum_real; auto.
  - rewrite herm_of_diag. apply (conj_re K).
  - intros k. rewrite (conj_add K), !(conj_mul K), !(conj_conj K). apply (add_comm LA).
Qed.
End Pf.
