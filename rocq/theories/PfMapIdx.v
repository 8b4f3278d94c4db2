(** Proofs of C92: offsets computed in the index type are exact. *)
From Coq Require Import List Arith NArith ZArith Bool Lia.
From Verif Require Import Mem Scalar View Spec Idx Ints SpecI SpecI2 PfInts Counter PfCounter SpecCt MapIdx SpecMi.
Set Implicit Arguments.
Local Open Scope Z_scope.

Lemma wrap_nat : forall T n, 1 <= iwidth T -> is_number T n -> wrap_to T (Z.of_nat n) = Z.of_nat n.
Proof. intros. apply wrap_id; auto. Qed.
Lemma num_le : forall T n k, 1 <= iwidth T -> is_number T n -> (k <= n)%nat -> is_number T k.
Proof. intros T n k W H L. apply rep_le with (z := Z.of_nat n); auto. lia. Qed.
Lemma promote_wrap : forall T n, 1 <= iwidth T -> is_number T n -> wrap_to (promote T) (Z.of_nat n) = Z.of_nat n.
Proof. intros T n W H. apply wrap_id; [apply width_promote; auto|]. apply rep_promote; auto. lia. Qed.
Lemma imul_ok : forall T x y, 1 <= iwidth T -> is_number T x -> is_number T y -> is_number T (x * y) -> imul T (num x) (num y) = num (x * y).
Proof.
  intros T x y W Hx Hy Hxy. unfold imul, num. rewrite !promote_wrap, <- Nat2Z.inj_mul by auto.
  apply result_ok; [apply width_promote; auto|apply rep_promote; auto; lia].
Qed.
Lemma iadd_ok : forall T x y, 1 <= iwidth T -> is_number T (x + y) -> iadd T (num x) (num y) = num (x + y).
Proof.
  intros T x y W Hxy. unfold iadd, num. rewrite !promote_wrap, <- Nat2Z.inj_add by (auto; eapply num_le; eauto; lia).
  apply result_ok; [apply width_promote; auto|apply rep_promote; auto; lia].
Qed.
Lemma conv_num : forall T n, 1 <= iwidth T -> is_number T n -> option_map (wrap_to T) (num n) = num n.
Proof. intros T n W H. unfold num. simpl. rewrite wrap_nat; auto. Qed.

Lemma index_off_ok : forall T l e0 e1 i j, 1 <= iwidth T -> is_number T e0 -> is_number T e1 -> strides_in T l ->
  (forall n, span_size l e0 e1 = Some n -> is_number T n) -> (i < e0)%nat -> (j < e1)%nat ->
  index_off T l e0 e1 (num i) (num j) = num (off l e0 e1 i j) /\ is_number T (off l e0 e1 i j).
Proof.
  intros T l. induction l as [| |s0 s1|ld|ld|l IH|f]; intros e0 e1 i j W H0 H1 Hs Hn Hi Hj;
    cbn [index_off off strides_in span_size] in *.
  7: tauto.
  6: { destruct (IH e1 e0 j i) as [E N]; auto. rewrite E, conv_num; auto. }
  all: specialize (Hn _ eq_refl).
  3-5: assert (Z : (e0 * e1 =? 0)%nat = false) by (apply Nat.eqb_neq; nia); rewrite Z in Hn.
  - assert (is_number T (i + e0 * j)) by (apply num_le with (n := (e0 * e1)%nat); auto; nia).
    rewrite imul_ok, iadd_ok, conv_num; auto; [apply num_le with (n := e1)|apply num_le with (n := (i + e0 * j)%nat)]; auto; lia.
  - assert (is_number T (i * e1 + j)) by (apply num_le with (n := (e0 * e1)%nat); auto; nia).
    rewrite imul_ok, iadd_ok, conv_num; auto; [apply num_le with (n := e0)|apply num_le with (n := (i * e1 + j)%nat)]; auto; lia.
  - assert (is_number T (i * s0 + j * s1)).
    { eapply num_le; [auto|exact Hn|]. assert (i * s0 <= (e0 - 1) * s0)%nat by (apply Nat.mul_le_mono_r; lia).
      assert (j * s1 <= (e1 - 1) * s1)%nat by (apply Nat.mul_le_mono_r; lia). lia. }
    destruct Hs. rewrite !imul_ok, iadd_ok, conv_num; auto;
      first [apply num_le with (n := e0); auto; lia|apply num_le with (n := e1); auto; lia|apply num_le with (n := (i * s0 + j * s1)%nat); auto; lia].
  - assert (is_number T (i + ld * j)).
    { eapply num_le; [auto|exact Hn|]. assert (ld * j <= ld * (e1 - 1))%nat by (apply Nat.mul_le_mono_l; lia). lia. }
    rewrite imul_ok, iadd_ok, conv_num; auto; [apply num_le with (n := e1)|apply num_le with (n := (i + ld * j)%nat)]; auto; lia.
  - assert (is_number T (i * ld + j)).
    { eapply num_le; [auto|exact Hn|]. assert (i * ld <= (e0 - 1) * ld)%nat by (apply Nat.mul_le_mono_r; lia). lia. }
    rewrite imul_ok, iadd_ok, conv_num; auto; [apply num_le with (n := e0)|apply num_le with (n := (i * ld + j)%nat)]; auto; lia.
Qed.
Lemma vindex_off_ok : forall (O : ops) T l (x : vec O) i, addressable_v T l x -> (i < vext x)%nat ->
  vindex_off T l (num i) = num (voff x i) /\ is_number T (voff x i).
Proof.
  intros O T l x i ([W _] & He & H) Hi. destruct l as [|s]; simpl.
  - rewrite H by auto. assert (is_number T i) by (apply num_le with (n := vext x); auto; lia). split; auto. apply conv_num; auto.
  - destruct H as (Hs & Ho & Hm). rewrite Ho by auto. specialize (Hm ltac:(lia)).
    assert (is_number T (i * s)).
    { eapply num_le; [auto|exact Hm|]. assert (i * s <= (vext x - 1) * s)%nat by (apply Nat.mul_le_mono_r; lia). lia. }
    change (vindex_off T (VStrided s) (num i)) with (option_map (wrap_to T) (imul T (num i) (num s))).
    split; auto. rewrite imul_ok, conv_num; auto. apply num_le with (n := vext x); auto; lia.
Qed.
Lemma to_address_ok : forall T n u, 1 <= iwidth T <= 64 -> is_number T n -> to_address (num n) u = n.
Proof.
  intros T n u W H. unfold to_address, num. rewrite wrap_id; [apply Nat2Z.id|simpl; lia|].
  destruct T as [s w]. simpl in W. eapply (@rep_wider s false w); eauto; try lia.
Qed.
Lemma indexed_addr_m : forall (O : ops) T u (A : mat O) i j, addressable_m T A -> (i < ext0 A)%nat -> (j < ext1 A)%nat ->
  maddr (indexed_m T u A) i j = maddr A i j.
Proof.
  intros O T u A i j (W & H0 & H1 & Hs & Hn) Hi Hj. unfold maddr, indexed_m. cbn [mbase mlay off ext0 ext1]. f_equal.
  assert (Ni : is_number T i) by (apply num_le with (n := ext0 A); auto; lia).
  assert (Nj : is_number T j) by (apply num_le with (n := ext1 A); auto; lia).
  unfold index_in. rewrite !wrap_nat by (auto; lia).
  destruct (@index_off_ok T (mlay A) (ext0 A) (ext1 A) i j) as [E N]; auto; try lia.
  change (Some (Z.of_nat i)) with (num i). change (Some (Z.of_nat j)) with (num j). rewrite E. eapply to_address_ok; eauto.
Qed.
Lemma indexed_addr_v : forall (O : ops) T l u (x : vec O) i, addressable_v T l x -> (i < vext x)%nat ->
  vaddr (indexed_v T l u x) i = vaddr x i.
Proof.
  intros O T l u x i Ha Hi. pose proof Ha as (W & He & _). unfold vaddr, indexed_v. cbn [vbase voff]. f_equal.
  assert (Ni : is_number T i) by (apply num_le with (n := vext x); auto; lia).
  unfold index_in. rewrite !wrap_nat by (auto; lia).
  destruct (@vindex_off_ok O T l x i Ha Hi) as [E N]. change (Some (Z.of_nat i)) with (num i). rewrite E. eapply to_address_ok; eauto.
Qed.

Section Access.
Context {O : ops}.
Lemma mget_indexed : forall T u (A : mat O) i j, addressable_m T A -> mget (indexed_m T u A) i j = mget A i j.
Proof.
  intros T u A i j H. unfold mget. cbn [indexed_m ext0 ext1 macc].
  destruct (Nat.ltb_spec i (ext0 A)), (Nat.ltb_spec j (ext1 A)); simpl; auto. fold (indexed_m T u A). rewrite indexed_addr_m; auto.
Qed.
Lemma mset_indexed : forall T u (A : mat O) i j v, addressable_m T A -> mset (indexed_m T u A) i j v = mset A i j v.
Proof.
  intros T u A i j v H. unfold mset. cbn [indexed_m ext0 ext1 macc]. destruct (macc A); auto.
  destruct (Nat.ltb_spec i (ext0 A)), (Nat.ltb_spec j (ext1 A)); simpl; auto. fold (indexed_m T u A). rewrite indexed_addr_m; auto.
Qed.
Lemma vget_indexed : forall T l u (x : vec O) i, addressable_v T l x -> vget (indexed_v T l u x) i = vget x i.
Proof.
  intros T l u x i H. unfold vget. cbn [indexed_v vext vacc].
  destruct (Nat.ltb_spec i (vext x)); simpl; auto. fold (indexed_v T l u x). rewrite indexed_addr_v; auto.
Qed.
Lemma vset_indexed : forall T l u (x : vec O) i v, addressable_v T l x -> vset (indexed_v T l u x) i v = vset x i v.
Proof.
  intros T l u x i v H. unfold vset. cbn [indexed_v vext vacc]. destruct (vacc x); auto.
  destruct (Nat.ltb_spec i (vext x)); simpl; auto. fold (indexed_v T l u x). rewrite indexed_addr_v; auto.
Qed.
End Access.

(** transposed() of an addressable matrix is addressable. *)
Lemma transposed_addressable : forall (O : ops) T fix_padded (A At : mat O), addressable_m T A ->
  match mlay A with LLeftPad ld => (1 <= ld /\ ext0 A <= ld)%nat | LRightPad ld => (1 <= ld /\ ext1 A <= ld)%nat | _ => True end ->
  transposed fix_padded A = Some At -> addressable_m T At.
Proof.
  intros O T fp A At (W & H0 & H1 & Hs & Hn) Hp. unfold transposed, transposed_layout, least_multiple_at_least.
  assert (L : forall ld e, (1 <= ld /\ e <= ld)%nat -> (if (ld =? 0)%nat then e else ((e + ld - 1) / ld * ld)%nat) = (if (e =? 0)%nat then 0 else ld)%nat).
  { intros ld e [P1 P2]. destruct (Nat.eqb_spec ld 0); [lia|]. destruct (Nat.eqb_spec e 0) as [->|].
    - rewrite Nat.div_small by lia. lia.
    - replace (e + ld - 1)%nat with ((e - 1) + 1 * ld)%nat by lia. rewrite Nat.div_add, Nat.div_small by lia. lia. }
  assert (Z0 : is_number T 0) by (eapply num_le; eauto; lia).
  destruct (mlay A) as [| |s0 s1|ld|ld|l|f] eqn:El; try discriminate; [| | | | |simpl in Hs; tauto].
  all: intros E; injection E as <-; unfold addressable_m; cbn [ext0 ext1 mlay]; split; [exact W|]; split; [exact H1|]; split; [exact H0|].
  - cbn [strides_in span_size] in *. rewrite Nat.mul_comm. auto.
  - cbn [strides_in span_size] in *. rewrite Nat.mul_comm. auto.
  - cbn [strides_in span_size] in *. destruct Hs. split; [split; auto|]. intros n. specialize (Hn _ eq_refl). rewrite (Nat.mul_comm (ext1 A)).
    destruct (_ =? 0)%nat; intros E; injection E as <-; auto. eapply num_le; [lia|exact Hn|lia].
  - destruct fp; cbn [strides_in span_size] in *; auto. rewrite L by auto. specialize (Hn _ eq_refl).
    split; [match goal with |- context [if ?b then _ else _] => destruct b end; auto|]. intros n. rewrite (Nat.mul_comm (ext1 A)).
    destruct (Nat.eqb_spec (ext0 A * ext1 A) 0); intros E; injection E as <-; auto.
    destruct (Nat.eqb_spec (ext0 A) 0); [nia|]. eapply num_le; [lia|exact Hn|lia].
  - destruct fp; cbn [strides_in span_size] in *; auto. rewrite L by auto. specialize (Hn _ eq_refl).
    split; [match goal with |- context [if ?b then _ else _] => destruct b end; auto|]. intros n. rewrite (Nat.mul_comm (ext1 A)).
    destruct (Nat.eqb_spec (ext0 A * ext1 A) 0); intros E; injection E as <-; auto.
    destruct (Nat.eqb_spec (ext1 A) 0); [nia|]. eapply num_le; [lia|exact Hn|lia].
Qed.
