From Coq Require Import ZArith Bool.
From Flocq Require Import IEEE754.BinarySingleNaN.
From Verif Require Import Mem Spec SpecR Proxy SpecP Ieee.

Lemma run_bind_ok {T A B} (p : prog T A) (f : A -> prog T B) m x m' :
  run p m = Ok x m' -> run (bind p f) m = run (f x) m'.
Proof.
  revert m; induction p as [y|a k IH|a v k IH|e]; intros m E; simpl in *.
  - now inversion E.
  - destruct (m a); [now apply IH|discriminate].
  - destruct (m a); [now apply IH|discriminate].
  - discriminate.
Qed.

Section P.
Variable L : cpp.
Hypothesis H : type_laws L.

Lemma read_stands (m : mem (cval L)) t r : one_type t r -> cell_has m t r ->
  exists v, run (read L r) m = Ok v m /\ stands_for m r = Some v /\ type_of L v = t.
Proof.
  destruct H as (Hc & Hm & Hj & _).
  intros O C; induction r as [a|r IH rv|s r IH rv]; simpl in *.
  - destruct C as (v & E & Ev); exists v; simpl in *; rewrite E; auto.
  - destruct O as [-> O]; destruct (IH O C) as (v & R & S & E).
    exists (cconjugate L v); rewrite (run_bind_ok _ _ _ _ _ R), S; simpl.
    assert (Ej : type_of L (cconjugate L v) = t) by (rewrite Hj; exact E).
    rewrite <- E, Hc, <- (Hj v), Hc; repeat split; auto.
  - destruct O as (-> & Os & O); destruct (IH O C) as (v & R & S & E).
    exists (cbin L Times s v); rewrite (run_bind_ok _ _ _ _ _ R), S; simpl.
    assert (Es : type_of L (cbin L Times s v) = t) by (rewrite Hm, E; exact Os).
    split; [|split; auto].
    rewrite <- E, Hc, E, <- Es, Hc; auto.
Qed.

Lemma value_type_one t r : is_proxy r -> one_type t r -> forall ct, value_type L r ct = t.
Proof.
  destruct H as (_ & _ & _ & Hj).
  destruct r; simpl; intros P O ct; [easy| |].
  - destruct O as [-> _]; apply Hj.
  - destruct O as (-> & Os & _); exact Os.
Qed.
Lemma proxy_type_one t r : is_proxy r -> one_type t r -> forall ct, proxy_type L r ct = t.
Proof. destruct r; simpl; intros P O ct; tauto. Qed.

Lemma proxy_value m t r : one_type t r -> cell_has m t r -> returns (read L r) m (fun v => stands_for m r = Some v).
Proof. intros O C; destruct (read_stands m t r O C) as (v & R & S & _); exists v; auto. Qed.

Lemma proxy_pp m t p q o ct : one_type t p -> cell_has m t p -> is_proxy q -> one_type t q -> cell_has m t q ->
  returns (op_pp L o p q ct) m (fun z => exists x y, stands_for m p = Some x /\ stands_for m q = Some y /\ z = cbin L o x y).
Proof.
  intros Op Cp Pq Oq Cq; destruct (read_stands m t p Op Cp) as (x & Rp & Sp & _); destruct (read_stands m t q Oq Cq) as (y & Rq & Sq & Ty).
  unfold op_pp; exists (cbin L o x y); split; [|exists x, y; auto].
  rewrite (run_bind_ok _ _ _ _ _ Rp), (run_bind_ok _ _ _ _ _ Rq), (value_type_one t q Pq Oq); simpl.
  rewrite <- Ty, (proj1 H); reflexivity.
Qed.
Lemma proxy_un m t p A (f : cval L -> A) : one_type t p -> cell_has m t p ->
  returns (bind (read L p) (fun x => Ret (f x))) m (fun z => exists x, stands_for m p = Some x /\ z = f x).
Proof.
  intros O C; destruct (read_stands m t p O C) as (x & R & S & _).
  exists (f x); split; [rewrite (run_bind_ok _ _ _ _ _ R); reflexivity|exists x; auto].
Qed.
Lemma proxy_eq m t p ct w : is_proxy p -> one_type t p -> cell_has m t p ->
  returns (op_eq L p ct w) m (fun b => exists x, stands_for m p = Some x /\ b = ceq L x w).
Proof.
  intros P O C; destruct (read_stands m t p O C) as (x & R & S & Tx).
  unfold op_eq; exists (ceq L x w); split; [|exists x; auto].
  rewrite (run_bind_ok _ _ _ _ _ R), (value_type_one t p P O); simpl; rewrite <- Tx, (proj1 H); reflexivity.
Qed.
Lemma proxy_abs m t p ct : is_proxy p -> one_type t p -> cell_has m t p ->
  returns (op_abs L p ct) m (fun z => exists x, stands_for m p = Some x /\ z = if is_unsigned L t then x else cabs L x).
Proof.
  intros P O C; unfold op_abs; rewrite (proxy_type_one t p P O).
  exact (proxy_un m t p _ (fun x => if is_unsigned L t then x else cabs L x) O C).
Qed.
Lemma access_viewed (m : mem (cval L)) a c v : m c = Some v -> type_of L v = stored_type a ->
  run (access L a c) m = Ok (viewed a v) m /\ type_of L (viewed a v) = element_type L a.
Proof.
  destruct H as (Hc & Hm & Hj & Ht).
  intros E T; induction a as [t|s a IH|a IH]; simpl in *.
  - rewrite E; auto.
  - destruct (IH T) as [R X]; split; [|rewrite Hm, X; reflexivity].
    rewrite (run_bind_ok _ _ _ _ _ R); simpl; rewrite <- X, Hc, <- Hm, Hc; reflexivity.
  - destruct (IH T) as [R X]; split; [|rewrite Hj, Ht; exact X].
    rewrite (run_bind_ok _ _ _ _ _ R); simpl; rewrite Ht, <- X, Hc, <- Hj, Hc; reflexivity.
Qed.
End P.

(** Whatever the types: what a scaled cell is read as. *)
Lemma read_scaled_cell L (m : mem (cval L)) s a rv v : m a = Some v -> type_of L v = rv -> (forall v, cast L (type_of L v) v = v) ->
  run (read L (Scaled s (Cell a) rv)) m = Ok (cast L rv (cbin L Times s v)) m.
Proof. intros E T Hc; simpl; rewrite E; simpl; rewrite <- T, Hc; reflexivity. Qed.

Lemma numbers_type_laws : type_laws numbers.
Proof.
  assert (I : forall z, num_type_of (int_of z) = TInt) by (intros z; unfold int_of; destruct (_ && _)%bool; reflexivity).
  repeat split.
  - intros [z|x|[]]; reflexivity.
  - intros [z|x|[]] [z'|x'|[]]; cbn -[Bmult binary_normalize int_of]; try reflexivity; apply I.
Qed.
