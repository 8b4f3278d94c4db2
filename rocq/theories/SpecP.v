(** Specification vocabulary for proxy references: the value a proxy stands for. *)
From Verif Require Import Mem Proxy.

(** Conversion to its own type leaves a value unchanged, products and conjugates have the types they should. *)
Definition type_laws (L : cpp) : Prop :=
  (forall v, cast L (type_of L v) v = v) /\
  (forall s v, type_of L (cbin L Times s v) = mul_type L (type_of L s) (type_of L v)) /\
  (forall v, type_of L (cconjugate L v) = type_of L v) /\
  (forall t, conj_type L t = t).

(** The conjugate of, or a factor times, the current content of the cell: no conversion anywhere. *)
Fixpoint stands_for {L} (m : mem (cval L)) (r : reference L) : option (cval L) :=
  match r with
  | Cell a => m a
  | Conjugated r _ => option_map (cconjugate L) (stands_for m r)
  | Scaled s r _ => option_map (cbin L Times s) (stands_for m r)
  end.

(** One type t throughout: every ReferenceValue is t, and a factor times a t is a t again. *)
Fixpoint one_type {L} (t : ctype L) (r : reference L) : Prop :=
  match r with
  | Cell _ => True
  | Conjugated r rv => rv = t /\ one_type t r
  | Scaled s r rv => rv = t /\ mul_type L (type_of L s) t = t /\ one_type t r
  end.
Fixpoint cell_of {L} (r : reference L) : nat :=
  match r with Cell a => a | Conjugated r _ => cell_of r | Scaled _ r _ => cell_of r end.
(** The cell below the proxies holds a t. *)
Definition cell_has {L} (m : mem (cval L)) (t : ctype L) (r : reference L) : Prop :=
  exists v, m (cell_of r) = Some v /\ type_of L v = t.
(** A proxy, not a plain reference. *)
Definition is_proxy {L} (r : reference L) : Prop := match r with Cell _ => False | _ => True end.

(** The element of a view: conjugates and multiples of the stored value, in their own types. *)
Fixpoint viewed {L} (a : accessor L) (v : cval L) : cval L :=
  match a with
  | DefaultAcc _ => v
  | ScaledAcc s a => cbin L Times s (viewed a v)
  | ConjugatedAcc a => cconjugate L (viewed a v)
  end.
Fixpoint stored_type {L} (a : accessor L) : ctype L :=
  match a with DefaultAcc t => t | ScaledAcc _ a => stored_type a | ConjugatedAcc a => stored_type a end.
