(* Proofs about Dispatch.v *)
From Coq Require Import List String Bool Arith Lia.
From Verif Require Import Dispatch SpecDispatch.
Import ListNotations.
Local Open Scope string_scope.

Lemma kind_eqb_eq a b : kind_eqb a b = true <-> a = b.
Proof. destruct a, b; simpl; split; congruence. Qed.

Lemma policy_eqb_eq p q : policy_eqb p q = true <-> p = q.
Proof.
  destruct p, q; simpl; rewrite ?Nat.eqb_eq; split; intros H; try congruence.
Qed.

Lemma is_inline_eq p : is_inline p = true <-> p = PInline.
Proof. destruct p; simpl; split; congruence. Qed.

Lemma kinds_match_map ks args : kinds_match ks args = true <-> map fst args = ks.
Proof.
  revert args; induction ks as [|k ks IH]; intros [|a args]; simpl; try (split; congruence).
  rewrite andb_true_iff, kind_eqb_eq, IH. split.
  - intros [-> ->]; reflexivity.
  - intros H; inversion H; auto.
Qed.

(* Signature of an overload: what distinguishes it from the others. *)
Definition sig (s : site) : string * list kind := (s_name s, map fst (s_params s)).

Definition list_kind_eqb : list kind -> list kind -> bool :=
  fix go a b := match a, b with
                | [], [] => true
                | x :: a, y :: b => kind_eqb x y && go a b
                | _, _ => false
                end.
Lemma list_kind_eqb_eq a b : list_kind_eqb a b = true <-> a = b.
Proof.
  revert b; induction a as [|x a IH]; intros [|y b]; simpl; try (split; congruence).
  rewrite andb_true_iff, kind_eqb_eq, IH. split.
  - intros [-> ->]; reflexivity.
  - intros H; inversion H; auto.
Qed.
Definition sig_eqb (a b : string * list kind) : bool :=
  String.eqb (fst a) (fst b) && list_kind_eqb (snd a) (snd b).
Lemma sig_eqb_eq a b : sig_eqb a b = true <-> a = b.
Proof.
  destruct a, b; unfold sig_eqb; simpl.
  rewrite andb_true_iff, String.eqb_eq, list_kind_eqb_eq. split.
  - intros [-> ->]; reflexivity.
  - intros H; inversion H; auto.
Qed.

Fixpoint nodup_sigs (l : list (string * list kind)) : bool :=
  match l with
  | [] => true
  | x :: l => negb (existsb (sig_eqb x) l) && nodup_sigs l
  end.
Lemma nodup_sigs_NoDup l : nodup_sigs l = true -> NoDup l.
Proof.
  induction l as [|x l IH]; simpl; intros H; constructor.
  - apply andb_true_iff in H; destruct H as [H _].
    intros Hin. apply negb_true_iff in H.
    assert (existsb (sig_eqb x) l = true) as Hx by
      (apply existsb_exists; exists x; split; [exact Hin | now apply sig_eqb_eq]).
    congruence.
  - apply IH. apply andb_true_iff in H. apply H.
Qed.

Lemma sites_distinct : NoDup (map sig sites).
Proof. apply nodup_sigs_NoDup. vm_compute. reflexivity. Qed.

Lemma same_sig s s' : In s sites -> In s' sites -> sig s = sig s' -> s = s'.
Proof.
  intros H H'. generalize sites_distinct. revert H H'.
  induction sites as [|x l IH]; simpl; [tauto|].
  intros [-> | H] [-> | H'] Hnd E; inversion Hnd as [|? ? Hni Hnd']; subst.
  - reflexivity.
  - exfalso. apply Hni. rewrite E. now apply in_map.
  - exfalso. apply Hni. rewrite <- E. now apply in_map.
  - now apply IH.
Qed.

Lemma find_only {A} (P : A -> bool) l x :
  In x l -> P x = true -> (forall y, In y l -> P y = true -> y = x) -> find P l = Some x.
Proof.
  intros Hin Hx Hu. destruct (find P l) as [y|] eqn:E.
  - apply find_some in E. destruct E as [H1 H2]. f_equal. now apply Hu.
  - exfalso. apply (find_none _ _ E) in Hin. congruence.
Qed.

(* The overload found for a call. *)
Lemma find_site_is c q s args :
  In s sites -> map fst args = map fst (s_params s) ->
  s_constrained s = false \/ linalg_policy c q = true ->
  find_site c q (s_name s) args = Some s.
Proof.
  intros Hin Hk Hc. apply find_only; [exact Hin| |].
  - unfold takes. rewrite String.eqb_refl.
    rewrite (proj2 (kinds_match_map _ _) Hk). simpl.
    destruct Hc as [-> | ->]; [reflexivity | apply orb_true_r].
  - intros y Hy Ht. apply same_sig; auto.
    unfold takes in Ht. rewrite !andb_true_iff in Ht. destruct Ht as [[H1 H2] _].
    apply String.eqb_eq in H1. apply kinds_match_map in H2.
    unfold sig. congruence.
Qed.

Lemma find_site_some c q name args s :
  find_site c q name args = Some s ->
  In s sites /\ s_name s = name /\ map fst args = map fst (s_params s) /\
  (s_constrained s = false \/ linalg_policy c q = true).
Proof.
  intros H. apply find_some in H. destruct H as [Hin H]. unfold takes in H.
  rewrite !andb_true_iff in H. destruct H as [[H1 H2] H3].
  apply String.eqb_eq in H1. apply kinds_match_map in H2.
  apply orb_true_iff in H3. rewrite negb_true_iff in H3. auto.
Qed.

(* Passing every parameter on in order passes the arguments on. *)
Lemma bound_skip p params a args xs :
  ~ In (snd p) xs ->
  map (bound (p :: params) (a :: args)) xs = map (bound params args) xs.
Proof.
  intros H. apply map_ext_in. intros x Hx. simpl.
  destruct (String.eqb_spec (snd p) x); [subst; contradiction | reflexivity].
Qed.

Lemma bound_all params args :
  NoDup (map snd params) -> List.length args = List.length params ->
  map (bound params args) (map snd params) = args.
Proof.
  revert args; induction params as [|p params IH]; intros [|a args] Hnd Hl; simpl in *;
    try lia; [reflexivity|].
  inversion Hnd; subst. rewrite String.eqb_refl. f_equal.
  transitivity (map (bound (p :: params) (a :: args)) (map snd params)); [reflexivity|].
  rewrite bound_skip by assumption. apply IH; auto.
Qed.

Definition list_string_eqb : list string -> list string -> bool :=
  fix go a b := match a, b with
                | [], [] => true
                | x :: a, y :: b => String.eqb x y && go a b
                | _, _ => false
                end.
Lemma list_string_eqb_eq a b : list_string_eqb a b = true -> a = b.
Proof.
  revert b; induction a as [|x a IH]; intros [|y b]; simpl; try congruence.
  rewrite andb_true_iff, String.eqb_eq. intros [-> H]. f_equal. now apply IH.
Qed.
Fixpoint nodup_strings (l : list string) : bool :=
  match l with
  | [] => true
  | x :: l => negb (existsb (String.eqb x) l) && nodup_strings l
  end.
Lemma nodup_strings_NoDup l : nodup_strings l = true -> NoDup l.
Proof.
  induction l as [|x l IH]; simpl; intros H; constructor.
  - apply andb_true_iff in H; destruct H as [H _].
    intros Hin. apply negb_true_iff in H.
    assert (existsb (String.eqb x) l = true) as Hx by
      (apply existsb_exists; exists x; split; [exact Hin | apply String.eqb_refl]).
    congruence.
  - apply IH. apply andb_true_iff in H. apply H.
Qed.

(* The else branch of an overload calls the inline overload of the same name with
   the same arguments, and that overload exists. *)
Definition inline_ok (s : site) : bool :=
  nodup_strings (map snd (s_params s)) &&
  String.eqb (fst (s_inline s)) (s_name s) &&
  list_string_eqb (snd (s_inline s)) (map snd (s_params s)) &&
  existsb (sig_eqb (sig s)) inline_overloads.

(* The test and the call it guards concern the algorithm itself. *)
Definition test_ok (s : site) : bool :=
  match s_test s with
  | TCustom name xs =>
      String.eqb name (s_name s) && list_string_eqb xs (map snd (s_params s)) &&
      String.eqb (fst (s_custom s)) (s_name s) &&
      list_string_eqb (snd (s_custom s)) (map snd (s_params s))
  | _ => false
  end.

Definition excluded (s : site) : bool :=
  existsb (String.eqb (s_name s))
    ["triangular_matrix_product"; "symmetric_matrix_product";
     "hermitian_matrix_product"; "triangular_matrix_matrix_solve"] ||
  (String.eqb (s_name s) "matrix_product" && Nat.eqb (List.length (s_params s)) 3) ||
  (String.eqb (s_name s) "triangular_matrix_vector_solve" &&
   Nat.eqb (List.length (s_params s)) 6).

Definition constrained_ok (s : site) : bool :=
  negb (s_constrained s) ||
  existsb (String.eqb (s_name s))
    ["symmetric_matrix_rank_1_update"; "hermitian_matrix_rank_1_update";
     "symmetric_matrix_rank_k_update"; "hermitian_matrix_rank_k_update"].

Lemma table_ok :
  forallb (fun s => inline_ok s && constrained_ok s && (excluded s || test_ok s)) sites = true.
Proof. vm_compute. reflexivity. Qed.

Lemma table_covers :
  forallb (fun o => existsb (fun s => sig_eqb (sig s) o) sites) inline_overloads = true.
Proof. vm_compute. reflexivity. Qed.

Definition plain_ok (o : plain_overload) : bool :=
  nodup_strings (map snd (n_params o)) &&
  String.eqb (fst (n_call o)) (n_name o) &&
  list_string_eqb (snd (n_call o)) (map snd (n_params o)).

Lemma plain_table_ok : forallb plain_ok plain_overloads = true.
Proof. vm_compute. reflexivity. Qed.

Lemma plain_covers :
  forallb (fun o => existsb (fun n => sig_eqb (n_name n, map fst (n_params n)) o)
                            plain_overloads) inline_overloads = true.
Proof. vm_compute. reflexivity. Qed.

Lemma in_strings x l : existsb (String.eqb x) l = true <-> In x l.
Proof.
  rewrite existsb_exists. split.
  - intros [y [Hy E]]. apply String.eqb_eq in E. now subst.
  - intros H. exists x. split; [exact H | apply String.eqb_refl].
Qed.

Lemma algorithm_site name args :
  algorithm name args ->
  exists s, In s sites /\ s_name s = name /\ map fst args = map fst (s_params s).
Proof.
  intros (ks & Hin & Hk).
  pose proof (proj1 (forallb_forall _ _) table_covers _ Hin) as H.
  apply existsb_exists in H. destruct H as (s & Hs & E). apply sig_eqb_eq in E.
  unfold sig in E. inversion E; subst. exists s. auto.
Qed.

Lemma map_length_eq {A B C} (f : A -> C) (g : B -> C) l l' :
  map f l = map g l' -> List.length l = List.length l'.
Proof. intros H. apply (f_equal (@List.length C)) in H. now rewrite !map_length in H. Qed.

Lemma table_at s : In s sites ->
  inline_ok s = true /\ constrained_ok s = true /\ (excluded s = true \/ test_ok s = true).
Proof.
  intros H. pose proof (proj1 (forallb_forall _ _) table_ok _ H) as E. simpl in E.
  rewrite !andb_true_iff, orb_true_iff in E. tauto.
Qed.

Lemma inline_branch s args :
  In s sites -> map fst args = map fst (s_params s) ->
  (let (name, xs) := s_inline s in run_inline name (inst s args xs)) =
  RunsInline (s_name s) args.
Proof.
  intros Hin Hk. destruct (table_at _ Hin) as (H & _ & _). unfold inline_ok in H.
  rewrite !andb_true_iff in H. destruct H as [[[H1 H2] H3] H4].
  destruct (s_inline s) as [name xs]. simpl in H2, H3.
  apply String.eqb_eq in H2. apply list_string_eqb_eq in H3.
  subst. unfold inst. rewrite bound_all.
  2: now apply nodup_strings_NoDup.
  2: exact (map_length_eq _ _ _ _ Hk).
  unfold run_inline.
  replace (existsb _ inline_overloads) with true; [reflexivity|].
  symmetry. apply existsb_exists in H4. destruct H4 as ([n ks] & Hin' & E).
  apply sig_eqb_eq in E. unfold sig in E. inversion E; subst.
  apply existsb_exists. exists (s_name s, map fst (s_params s)).
  split; [exact Hin'|]. simpl. rewrite String.eqb_refl. simpl.
  now apply kinds_match_map.
Qed.

Lemma adl_none e args : no_linalg_argument e args -> adl e args = false.
Proof.
  intros H. unfold adl. apply not_true_is_false. intros E.
  apply existsb_exists in E. destruct E as ([k x] & Hin & E).
  destruct (H _ Hin) as (H1 & H2 & H3 & H4). simpl in *.
  destruct k; congruence.
Qed.

Lemma test_branch e s q args :
  In s sites -> map fst args = map fst (s_params s) -> test_ok s = true ->
  (let (name, xs) := s_custom s in (name, inst s args xs)) = (s_name s, args) /\
  trait e s q args = well_formed e q (s_name s) args && negb (is_inline q).
Proof.
  intros Hin Hk H. destruct (table_at _ Hin) as (Hi & _ & _). unfold inline_ok in Hi.
  rewrite !andb_true_iff in Hi. destruct Hi as [[[H1 _] _] _].
  assert (inst s args (map snd (s_params s)) = args) as Hall.
  { unfold inst. apply bound_all; [now apply nodup_strings_NoDup|].
    exact (map_length_eq _ _ _ _ Hk). }
  unfold test_ok in H. unfold trait.
  destruct (s_test s) as [name xs| |]; try discriminate.
  rewrite !andb_true_iff in H. destruct H as [[[Ha Hb] Hc] Hd].
  apply String.eqb_eq in Ha. apply list_string_eqb_eq in Hb.
  destruct (s_custom s) as [cn cxs]. simpl in Hc, Hd.
  apply String.eqb_eq in Hc. apply list_string_eqb_eq in Hd. subst.
  rewrite Hall. auto.
Qed.

Lemma dispatch_ok e s p args fuel :
  In s sites -> map fst args = map fst (s_params s) -> test_ok s = true ->
  maps_away e p -> settled e p args ->
  as_documented e p (s_name s) args (dispatch (S (S fuel)) e s p args).
Proof.
  intros Hin Hk Ht Haway Hset.
  assert (forall q, (let (name, xs) := s_custom s in (name, inst s args xs)) =
                    (s_name s, args) /\
          trait e s q args = well_formed e q (s_name s) args && negb (is_inline q)) as Htb
    by (intros; now apply test_branch).
  assert (s_checked s && negb (is_inline p) && policy_eqb (mapper e p) p = false) as Hchk.
  { destruct Haway as [-> | Hne]; [simpl; now rewrite andb_false_r|].
    replace (policy_eqb (mapper e p) p) with false; [now rewrite andb_false_r|].
    symmetry. apply not_true_is_false. intros E. apply policy_eqb_eq in E. contradiction. }
  cbn [dispatch]. rewrite Hchk.
  destruct (Htb (mapper e p)) as [Hc ->].
  destruct (is_inline (mapper e p)) eqn:Ei.
  { rewrite andb_false_r. rewrite inline_branch by assumption.
    right. split; [left; now apply is_inline_eq | reflexivity]. }
  assert (mapper e p <> PInline) as Hni by
    (intros E; rewrite E in Ei; discriminate).
  rewrite andb_true_r. unfold well_formed.
  destruct (custom e (mapper e p) (s_name s) args) eqn:Ec.
  { cbn [orb]. destruct (s_custom s) as [cn cxs]. injection Hc as E1 E2.
    cbv zeta. rewrite E1, E2, Ec. left. auto. }
  cbn [orb]. destruct Hset as [E | [E | E]]; [contradiction| |].
  2:{ rewrite (adl_none _ _ E). cbn [andb]. rewrite inline_branch by assumption.
      right. auto. }
  destruct (adl e args) eqn:Ea; cbn [andb].
  2:{ rewrite inline_branch by assumption. right; auto. }
  destruct (find_site Rvalue (mapper e p) (s_name s) args) as [s'|] eqn:Ef.
  2:{ rewrite inline_branch by assumption. right; auto. }
  destruct (s_custom s) as [cn cxs] eqn:Es. injection Hc as E1 E2.
  cbv zeta. rewrite E1, E2, Ec, Ef.
  destruct (find_site_some _ _ _ _ _ Ef) as (Hin' & Hn' & Hk' & _).
  assert (s' = s) as -> by (apply same_sig; auto; unfold sig; congruence).
  rewrite E.
  replace (policy_eqb PInline (mapper e p)) with false
    by (destruct (mapper e p); [contradiction | reflexivity..]).
  rewrite andb_false_r.
  destruct (Htb PInline) as [_ ->]. cbn [is_inline negb]. rewrite andb_false_r.
  rewrite inline_branch by assumption. right; auto.
Qed.

Lemma accepted_ok c p s :
  In s sites -> accepted c p (s_name s) ->
  s_constrained s = false \/ linalg_policy c p = true.
Proof.
  intros Hin Ha. destruct (table_at _ Hin) as (_ & H & _). unfold constrained_ok in H.
  destruct (s_constrained s); [|now left]. right. simpl in H.
  destruct Ha as [-> Hp]; [apply in_strings; simpl; exact H|].
  destruct Hp as [-> | [n -> ]]; reflexivity.
Qed.

Lemma not_excluded s args :
  map fst args = map fst (s_params s) -> one_name (s_name s) args -> excluded s = false.
Proof.
  intros Hk (H1 & H2 & H3). apply map_length_eq in Hk. unfold excluded.
  apply orb_false_iff; split; [apply orb_false_iff; split|].
  - apply not_true_is_false. intros E. apply in_strings in E. contradiction.
  - apply not_true_is_false. intros E. apply andb_true_iff in E. destruct E as [E1 E2].
    apply String.eqb_eq in E1. apply Nat.eqb_eq in E2. apply (H2 E1). exact (eq_trans Hk E2).
  - apply not_true_is_false. intros E. apply andb_true_iff in E. destruct E as [E1 E2].
    apply String.eqb_eq in E1. apply Nat.eqb_eq in E2. apply (H3 E1). exact (eq_trans Hk E2).
Qed.

Lemma call_ok (e : env) (c : category) (p : policy) (name : string) (args : list arg) (fuel : nat) :
  algorithm name args -> one_name name args -> accepted c p name ->
  maps_away e p -> settled e p args -> 2 <= fuel ->
  as_documented e p name args (call_with fuel e c p name args).
Proof.
  intros Halg Hone Hacc Haway Hset Hf.
  destruct (algorithm_site _ _ Halg) as (s & Hin & <- & Hk).
  unfold call_with. rewrite (find_site_is c p s args Hin Hk (accepted_ok _ _ _ Hin Hacc)).
  destruct fuel as [|[|fuel]]; try lia.
  apply dispatch_ok; auto.
  destruct (table_at _ Hin) as (_ & _ & [E | E]); [|exact E].
  rewrite (not_excluded _ _ Hk Hone) in E. discriminate.
Qed.

Lemma call_without_ok (e : env) (name : string) (args : list arg) (fuel : nat) :
  algorithm name args ->
  call_without fuel e name args = call_with fuel e Rvalue PDefault name args.
Proof.
  intros (ks & Hin & Hk). unfold call_without.
  pose proof (proj1 (forallb_forall _ _) plain_covers _ Hin) as H.
  apply existsb_exists in H. destruct H as (o & Ho & E). apply sig_eqb_eq in E.
  injection E as En Ek.
  destruct (find _ plain_overloads) as [o'|] eqn:Ef.
  - apply find_some in Ef. destruct Ef as [Ho' E']. apply andb_true_iff in E'.
    destruct E' as [E1 E2]. apply String.eqb_eq in E1. apply kinds_match_map in E2.
    pose proof (proj1 (forallb_forall _ _) plain_table_ok _ Ho') as H. unfold plain_ok in H.
    rewrite !andb_true_iff in H. destruct H as [[Ha Hb] Hc].
    destruct (n_call o') as [callee xs]. simpl in Hb, Hc.
    apply String.eqb_eq in Hb. apply list_string_eqb_eq in Hc. subst.
    rewrite bound_all; [|now apply nodup_strings_NoDup|exact (map_length_eq _ _ _ _ E2)].
    congruence.
  - exfalso. apply (find_none _ _) with (x := o) in Ef; [|exact Ho].
    apply andb_false_iff in Ef. destruct Ef as [Ef | Ef].
    + rewrite En, String.eqb_refl in Ef. discriminate.
    + rewrite Ek, (proj2 (kinds_match_map _ _) Hk) in Ef. discriminate.
Qed.

Lemma trait_inline e s args : trait e s PInline args = false.
Proof.
  unfold trait. destruct (s_test s); [| |reflexivity]; cbn [is_inline negb]; apply andb_false_r.
Qed.

Lemma call_inline (e : env) (c : category) (p : policy) (name : string) (args : list arg) (fuel : nat) :
  algorithm name args -> accepted c p name -> mapper e p = PInline -> 1 <= fuel ->
  call_with fuel e c p name args = RunsInline name args.
Proof.
  intros Halg Hacc Hm Hf.
  destruct (algorithm_site _ _ Halg) as (s & Hin & <- & Hk).
  unfold call_with. rewrite (find_site_is c p s args Hin Hk (accepted_ok _ _ _ Hin Hacc)).
  destruct fuel as [|fuel]; [lia|]. cbn [dispatch]. rewrite Hm.
  replace (s_checked s && negb (is_inline p) && policy_eqb PInline p) with false
    by (destruct p; simpl; rewrite ?andb_false_r; reflexivity).
  rewrite trait_inline. now apply inline_branch.
Qed.

Lemma call_no_custom (e : env) (c : category) (p : policy) (name : string) (args : list arg) (fuel : nat) :
  algorithm name args -> one_name name args -> accepted c p name -> no_custom e ->
  maps_away e p -> settled e p args -> maps_away e PDefault -> settled e PDefault args ->
  2 <= fuel ->
  call_with fuel e c p name args = RunsInline name args /\
  call_without fuel e name args = RunsInline name args.
Proof.
  intros Halg Hone Hacc Hno Ha Hs Ha' Hs' Hf. split.
  - destruct (call_ok e c p name args fuel Halg Hone Hacc Ha Hs Hf) as [(_ & E & _) | [_ E]];
      [rewrite Hno in E; discriminate | exact E].
  - rewrite call_without_ok by assumption.
    assert (accepted Rvalue PDefault name) as Hd by (intros _; auto).
    destruct (call_ok e Rvalue PDefault name args fuel Halg Hone Hd Ha' Hs' Hf)
      as [(_ & E & _) | [_ E]]; [rewrite Hno in E; discriminate | exact E].
Qed.

(* The overwriting matrix_product never reaches a custom implementation. *)
Lemma call_matrix_product (e : env) (c : category) (p : policy) (A B C : string) (fuel : nat) :
  maps_away e p -> 1 <= fuel ->
  call_with fuel e c p "matrix_product" [(KMat, A); (KMat, B); (KMat, C)] =
  RunsInline "matrix_product" [(KMat, A); (KMat, B); (KMat, C)].
Proof.
  intros Ha Hf.
  set (args := [(KMat, A); (KMat, B); (KMat, C)]).
  destruct (find (fun s => sig_eqb (sig s) ("matrix_product", [KMat; KMat; KMat])) sites)
    as [s|] eqn:E; [|vm_compute in E; discriminate].
  pose proof E as E'. vm_compute in E. injection E as Es.
  apply find_some in E'. destruct E' as [Hin Hsig]. apply sig_eqb_eq in Hsig.
  assert (s_name s = "matrix_product") as Hn by (unfold sig in Hsig; congruence).
  assert (map fst args = map fst (s_params s)) as Hk by (unfold sig in Hsig; simpl; congruence).
  unfold call_with. rewrite <- Hn.
  rewrite (find_site_is c p s args Hin Hk) by (left; now rewrite <- Es).
  destruct fuel as [|fuel]; [lia|]. cbn [dispatch].
  replace (trait e s (mapper e p) args) with false.
  2:{ rewrite <- Es. unfold trait. cbn [s_test ret_same negb].
      now rewrite andb_false_r. }
  replace (s_checked s && negb (is_inline p) && policy_eqb (mapper e p) p) with false.
  2:{ destruct Ha as [-> | Hne]; [simpl; now rewrite andb_false_r|].
      replace (policy_eqb (mapper e p) p) with false; [now rewrite andb_false_r|].
      symmetry. apply not_true_is_false. intros E. apply policy_eqb_eq in E. contradiction. }
  now apply inline_branch.
Qed.

Lemma adl_tag e args a :
  In a args -> fst a = KTri -> adl e args = true.
Proof.
  intros Hin Hk. apply existsb_exists. exists a. split; [exact Hin|].
  destruct a as [k x]. simpl in Hk. now subst.
Qed.

Lemma redirected_call (e : env) (c : category) (p : policy) (name name' : string)
    (args args' : list arg) (fuel : nat) :
  redirected name args name' args' -> maps_away e p -> mapper e p <> PInline -> 1 <= fuel ->
  call_with fuel e c p name args =
  if custom e (mapper e p) name' args' then RunsCustom (mapper e p) name' args' else IllFormed.
Proof.
  intros Hr Ha Hni Hf. destruct fuel as [|fuel]; [lia|].
  assert (negb (is_inline p) && policy_eqb (mapper e p) p = false) as Hchk.
  { destruct Ha as [-> | Hne]; [reflexivity|].
    replace (policy_eqb (mapper e p) p) with false; [now rewrite andb_false_r|].
    symmetry. apply not_true_is_false. intros E. apply policy_eqb_eq in E. contradiction. }
  assert (negb (is_inline (mapper e p)) = true) as Hi
    by (destruct (mapper e p); [contradiction | reflexivity..]).
  inversion Hr; subst; unfold call_with;
  match goal with
  | |- context [find_site c p ?n ?l] =>
      let s := eval vm_compute in (find_site c p n l) in
      change (find_site c p n l) with s
  end; cbv iota beta; cbn [dispatch s_checked s_custom s_inline];
  rewrite <- andb_assoc, Hchk, andb_false_r;
  unfold trait; cbn [s_test]; unfold inst; cbn [s_params map bound snd String.eqb Ascii.eqb Bool.eqb];
  rewrite Hi, andb_true_r; unfold well_formed;
  match goal with
  | |- context [adl e ?l] => rewrite (adl_tag e l (KTri, t)) by (simpl; tauto)
  end; cbn [andb];
  match goal with
  | |- context [find_site Rvalue ?q ?n ?l] =>
      let s := eval vm_compute in (find_site Rvalue q n l) in
      change (find_site Rvalue q n l) with s
  end; cbv iota beta; rewrite orb_true_r;
  match goal with
  | |- context [find_site Rvalue ?q ?n ?l] =>
      let s := eval vm_compute in (find_site Rvalue q n l) in
      change (find_site Rvalue q n l) with s
  end; reflexivity.
Qed.

(* An environment with a single user policy, and a mapper given by a function. *)
Definition one_custom (m : policy -> policy) (q : policy) (name : string) (args : list arg) : env :=
  {| mapper := m;
     custom := fun q' name' args' =>
       policy_eqb q q' && String.eqb name name' &&
       list_string_eqb (map snd args) (map snd args') &&
       list_kind_eqb (map fst args) (map fst args');
     assoc := fun _ => false |}.

Lemma cycle_unfinished (fuel : nat) :
  let m p := match p with PUser 0 => PUser 1 | PUser 1 => PUser 0 | _ => PInline end in
  let e := {| mapper := m; custom := fun _ _ _ => false; assoc := fun _ => false |} in
  let args := [(KVec, "x"); (KVec, "y"); (KMat, "A"); (KTri, "t")] in
  call_with fuel e Rvalue (PUser 0) "symmetric_matrix_rank_2_update" args = Unfinished.
Proof.
  intros m e args.
  set (s := match find_site Rvalue (PUser 0) "symmetric_matrix_rank_2_update" args with
            | Some s => s
            | None => match sites with s :: _ => s
                      | [] => Build_site "" [] false false TNever ("", []) ("", []) end
            end).
  assert (forall p, p = PUser 0 \/ p = PUser 1 ->
          find_site Rvalue p "symmetric_matrix_rank_2_update" args = Some s) as Hs
    by (intros p [-> | -> ]; vm_compute; reflexivity).
  assert (forall f, dispatch f e s (PUser 0) args = Unfinished /\
                    dispatch f e s (PUser 1) args = Unfinished) as H.
  { induction f as [|f [IH0 IH1]]; [split; reflexivity|].
    assert (s_custom s = ("symmetric_matrix_rank_2_update", ["x"; "y"; "A"; "t"]) /\
            inst s args ["x"; "y"; "A"; "t"] = args /\
            trait e s (PUser 0) args = true /\ trait e s (PUser 1) args = true /\
            policy_eqb (PUser 0) (PUser 1) = false /\ policy_eqb (PUser 1) (PUser 0) = false)
      as (H1 & H2 & H3 & H4 & H5 & H6) by (vm_compute; auto 10).
    split; cbn [dispatch]; change (mapper e (PUser 0)) with (PUser 1);
      change (mapper e (PUser 1)) with (PUser 0); rewrite ?H5, ?H6, ?andb_false_r, ?H3, ?H4, H1;
      cbv zeta; rewrite H2;
      change (custom e (PUser 0)) with (fun (_ : string) (_ : list arg) => false);
      change (custom e (PUser 1)) with (fun (_ : string) (_ : list arg) => false);
      cbv beta iota; rewrite Hs by auto; assumption. }
  unfold call_with. rewrite Hs by auto. apply H.
Qed.

Lemma constrained_names : forallb (fun s => implb (existsb (String.eqb (s_name s))
  ["symmetric_matrix_rank_1_update"; "hermitian_matrix_rank_1_update";
   "symmetric_matrix_rank_k_update"; "hermitian_matrix_rank_k_update"]) (s_constrained s)) sites = true.
Proof. vm_compute. reflexivity. Qed.

Lemma call_rejected (e : env) (c : category) (p : policy) (name : string) (args : list arg) (fuel : nat) :
  standard_policies_only name -> ~ accepted c p name -> call_with fuel e c p name args = IllFormed.
Proof.
  intros Hn Ha. unfold call_with.
  destruct (find_site c p name args) as [s|] eqn:E; [exfalso|reflexivity].
  unfold find_site in E. apply find_some in E. destruct E as [Hin E]. unfold takes in E.
  apply andb_true_iff in E. destruct E as [E Hc]. apply andb_true_iff in E. destruct E as [E _].
  apply String.eqb_eq in E.
  pose proof (proj1 (forallb_forall _ _) constrained_names _ Hin) as H. cbv beta in H.
  assert (existsb (String.eqb (s_name s)) ["symmetric_matrix_rank_1_update"; "hermitian_matrix_rank_1_update";
   "symmetric_matrix_rank_k_update"; "hermitian_matrix_rank_k_update"] = true) as Hx.
  { apply existsb_exists. exists name. split; [exact Hn|]. apply String.eqb_eq. exact E. }
  rewrite Hx in H. simpl in H. rewrite H in Hc. simpl in Hc.
  apply Ha. intros _. destruct c; [|discriminate]. split; [reflexivity|].
  destruct p; simpl in Hc; try discriminate; eauto.
Qed.

(* The body of the inline overload reached by a call. *)
Lemma follow_loops (e : env) (name : string) (args : list arg) (fuel : nat) :
  algorithm name args -> name <> "triangular_matrix_matrix_solve" ->
  mapper e PInline = PInline -> 1 <= fuel ->
  library_loops name args (follow fuel e (RunsInline name args)).
Proof.
  intros Halg Hside Hm Hf. unfold follow, inner.
  destruct (String.eqb_spec name "triangular_matrix_matrix_solve") as [E|_]; [contradiction|].
  destruct Halg as (ks & Hin & Hk).
  destruct (String.eqb_spec name "vector_two_norm") as [->|H2].
  { assert (ks = [KVec; KScal]) as ->.
    { revert Hin. clear. vm_compute. intuition congruence. }
    destruct args as [|x [|init [|]]]; try discriminate Hk.
    rewrite call_inline.
    - apply loops_norm.
    - exists [KVec; KScal]. split; [vm_compute; tauto|]. simpl. injection Hk as Hx _.
      rewrite Hx. reflexivity.
    - intros H. vm_compute in H. intuition discriminate.
    - exact Hm.
    - exact Hf. }
  destruct (String.eqb_spec name "triangular_matrix_vector_solve") as [->|H3].
  2: { apply loops_own; [exact H2 | contradiction]. }
  assert (ks = [KMat; KTri; KDiag; KVec; KVec; KScal] \/ ks = [KMat; KTri; KDiag; KVec; KVec]) as [-> | ->].
  { revert Hin. clear. vm_compute. intuition congruence. }
  - do 6 (destruct args as [|? args]; [discriminate Hk|]). destruct args; [|discriminate Hk].
    apply loops_own; [exact H2 | discriminate].
  - do 5 (destruct args as [|? args]; [discriminate Hk|]). destruct args; [|discriminate Hk].
    unfold run_inline. replace (existsb _ inline_overloads) with true; [apply loops_solve|].
    symmetry. apply existsb_exists.
    exists ("triangular_matrix_vector_solve", [KMat; KTri; KDiag; KVec; KVec; KScal]).
    split; [vm_compute; tauto|]. cbn [fst snd]. rewrite String.eqb_refl. cbn [andb].
    apply kinds_match_map. cbn [map fst] in Hk |- *. congruence.
Qed.

(* A policy mapped to the inline one. *)
Lemma inline_follow (e : env) (c : category) (p : policy) (name : string) (args : list arg) (fuel : nat) :
  algorithm name args -> name <> "triangular_matrix_matrix_solve" -> accepted c p name ->
  mapper e p = PInline -> mapper e PInline = PInline -> 1 <= fuel ->
  library_loops name args (follow fuel e (call_with fuel e c p name args)).
Proof.
  intros Ha Hs Hc Hp Hi Hf. rewrite call_inline by assumption. now apply follow_loops.
Qed.

(* The solve with a side: what the default policy does with the one-sided solve. *)
Lemma side_follow (e : env) (c : category) (p : policy) (fuel : nat) (A t d s B X : string) :
  mapper e p = PInline -> 1 <= fuel ->
  follow fuel e (call_with fuel e c p "triangular_matrix_matrix_solve"
    [(KMat, A); (KTri, t); (KDiag, d); (KSide, s); (KMat, B); (KMat, X)]) =
  call_with fuel e Rvalue PDefault
    (if String.eqb s "left_side_t" then "triangular_matrix_matrix_left_solve"
     else "triangular_matrix_matrix_right_solve")
    [(KMat, A); (KTri, t); (KDiag, d); (KMat, B); (KMat, X)].
Proof.
  intros Hp Hf. rewrite call_inline.
  - cbn [follow inner]. unfold inner. rewrite String.eqb_refl. cbn [snd].
    apply call_without_ok. exists [KMat; KTri; KDiag; KMat; KMat].
    destruct (String.eqb s "left_side_t"); (split; [vm_compute; tauto | reflexivity]).
  - exists [KMat; KTri; KDiag; KSide; KMat; KMat]. split; [vm_compute; tauto | reflexivity].
  - intros H. vm_compute in H. intuition discriminate.
  - exact Hp.
  - exact Hf.
Qed.
