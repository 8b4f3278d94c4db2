(** C77: proxy references stand for the value they denote. *)
From Coq Require Import ZArith Bool.
From Flocq Require Import IEEE754.BinarySingleNaN.
From Verif Require Import Mem Spec SpecR Proxy SpecP PfProxy Ieee.

(** Reading a proxy gives the conjugate or multiple of what the cell holds at that moment; memory is unchanged.
    Partial: one type throughout (see C77_mixed_types_refuted). *)
Theorem C77_value_partial : forall L, type_laws L -> forall (m : mem (cval L)) t r,
  one_type t r -> cell_has m t r -> returns (read L r) m (fun v => stands_for m r = Some v).
Proof. exact proxy_value. Qed.
Print Assumptions C77_value_partial.

(** The operators, on two proxies or a proxy and a value, act on these values. *)
Theorem C77_operators_partial : forall L, type_laws L -> forall (m : mem (cval L)) t p o,
  one_type t p -> cell_has m t p ->
  (forall q ct, is_proxy q -> one_type t q -> cell_has m t q ->
   returns (op_pp L o p q ct) m (fun z => exists x y, stands_for m p = Some x /\ stands_for m q = Some y /\ z = cbin L o x y)) /\
  (forall w, returns (op_pv L o p w) m (fun z => exists x, stands_for m p = Some x /\ z = cbin L o x w)) /\
  (forall w, returns (op_vp L o w p) m (fun z => exists x, stands_for m p = Some x /\ z = cbin L o w x)).
Proof.
  exact (fun L H m t p o O C => Logic.conj (fun q ct => proxy_pp L H m t p q o ct O C)
    (Logic.conj (fun w => proxy_un L H m t p _ (fun x => cbin L o x w) O C)
                (fun w => proxy_un L H m t p _ (fun x => cbin L o w x) O C))).
Qed.
Print Assumptions C77_operators_partial.

(** Negation, abs, real, imag, conj and the comparison of scaled_scalar. *)
Theorem C77_functions_partial : forall L, type_laws L -> forall (m : mem (cval L)) t p ct w,
  is_proxy p -> one_type t p -> cell_has m t p ->
  returns (op_neg L p) m (fun z => exists x, stands_for m p = Some x /\ z = cneg L x) /\
  returns (op_abs L p ct) m (fun z => exists x, stands_for m p = Some x /\ z = if is_unsigned L t then x else cabs L x) /\
  returns (op_real L p) m (fun z => exists x, stands_for m p = Some x /\ z = creal L x) /\
  returns (op_imag L p) m (fun z => exists x, stands_for m p = Some x /\ z = cimag L x) /\
  returns (op_conj L p) m (fun z => exists x, stands_for m p = Some x /\ z = cconjugate L x) /\
  returns (op_eq L p ct w) m (fun b => exists x, stands_for m p = Some x /\ b = ceq L x w).
Proof.
  exact (fun L H m t p ct w P O C =>
    Logic.conj (proxy_un L H m t p _ (cneg L) O C) (Logic.conj (proxy_abs L H m t p ct P O C)
    (Logic.conj (proxy_un L H m t p _ (creal L) O C) (Logic.conj (proxy_un L H m t p _ (cimag L) O C)
    (Logic.conj (proxy_un L H m t p _ (cconjugate L) O C) (proxy_eq L H m t p ct w P O C)))))).
Qed.
Print Assumptions C77_functions_partial.

Definition three : mem num := fun a => if Nat.eqb a 0 then Some (VInt 3) else None.
Definition half : num := VDouble (pow2_64 (-1)).
Definition two : num := VDouble (pow2_64 1).

(** The full statement is false when the factor is of another type: scaled_scalar<double, int&, int> with factor 1/2
    and an int of value 3 has value_type double, but reads as the int 1, so that it does not even compare equal to
    1/2 * 3, and twice it is 2. *)
Theorem C77_mixed_types_refuted : exists (m : mem (cval numbers)) s a rv,
  (exists v, m a = Some v /\ type_of numbers v = rv) /\ value_type numbers (Scaled s (Cell a) rv) rv = TDouble /\
  run (read numbers (Scaled s (Cell a) rv)) m = Ok (VInt 1) m /\
  run (op_eq numbers (Scaled s (Cell a) rv) rv (cbin numbers Times s (VInt 3))) m = Ok false m /\
  run (op_pv numbers Times (Scaled s (Cell a) rv) (VInt 2)) m = Ok (VInt 2) m /\
  ceq numbers (cbin numbers Times (cbin numbers Times s (VInt 3)) (VInt 2)) (VInt 3) = true.
Proof.
  exists three, half, 0, TInt; split; [exists (VInt 3); split; reflexivity|].
  split; [reflexivity|]; split; [reflexivity|]; split; [reflexivity|]; split; [reflexivity|]; vm_compute; reflexivity.
Qed.
Print Assumptions C77_mixed_types_refuted.

(** int and double satisfy the laws; twice the conjugate of a double (nested proxies) times an int factor. *)
Definition dbl3 : mem num := fun a => if Nat.eqb a 0 then Some (VDouble (pow2_64 3)) else None.
Definition nested : reference numbers := 
  @Scaled numbers (VInt 5) (@Conjugated numbers (@Scaled numbers two (Cell 0) TDouble) TDouble) TDouble.
Example C77_case : type_laws numbers /\ @one_type numbers TDouble nested /\ @cell_has numbers dbl3 TDouble nested /\ is_proxy nested /\
  match run (op_pp numbers Minus nested nested TDouble) dbl3 with Ok v _ => ceq numbers v (VInt 0) | _ => false end = true /\
  match run (read numbers nested) dbl3 with Ok v _ => ceq numbers v (VInt 80) | _ => false end = true.
Proof.
  split; [exact numbers_type_laws|]; split; [repeat split|]; split; [eexists; split; reflexivity|]; split; [exact I|].
  split; vm_compute; reflexivity.
Qed.

(** Unlike the proxies, views made by scaled() and conjugated() lose nothing, whatever the types of factors and
    elements: the element read has the type and the value of the product, computed from the innermost outwards. *)
Theorem C01_mixed_types : forall L, type_laws L -> forall (m : mem (cval L)) a c v,
  m c = Some v -> type_of L v = stored_type a ->
  run (access L a c) m = Ok (viewed a v) m /\ type_of L (viewed a v) = element_type L a.
Proof. exact access_viewed. Qed.
Print Assumptions C01_mixed_types.

(** Half of an int 3 is 3/2, three times that is 9/2. *)
Example C01_mixed_case : type_laws numbers /\ stored_type (@ScaledAcc numbers half (@DefaultAcc numbers TInt)) = TInt /\
  element_type numbers (@ScaledAcc numbers half (@DefaultAcc numbers TInt)) = TDouble /\
  match run (access numbers (@ScaledAcc numbers (VInt 3) (@ScaledAcc numbers half (@DefaultAcc numbers TInt))) 0) three with
  | Ok v _ => ceq numbers (num_bin Times v (VInt 2)) (VInt 9) | _ => false end = true.
Proof. split; [exact numbers_type_laws|]; split; [reflexivity|]; split; [reflexivity|]; vm_compute; reflexivity. Qed.
