(** Properties C01-C04 (pyfilter/container.py, pyfilter/state.py). *)
From Coq Require Import String List ZArith.
From Verif.Model Require Import Base Container.
From Verif.Spec Require Import ContainerSpec.
From Verif.Proofs Require Import ContainerProofs.
Import ListNotations.
Open Scope string_scope.

(** * C01 *)

(** The capacity that a recording setting stands for; [None]: the setting is refused. *)
Definition setting_means (m : maxlen_arg) : option (option nat) :=
  match m with
  | MLBool false => Some (Some 1)
  | MLBool true | MLNone => Some None
  | MLInt z => if (0 <=? z)%Z then Some (Some (Z.to_nat z)) else None
  end.

Theorem C01_recording_window : forall (T : Type) (setting : maxlen_arg) (history : list T),
  match setting_means setting with
  | None => make_dequeue (T := T) setting = Raise ValueError
  | Some cap => exists d, make_dequeue (T := T) setting = Ok d /\
                 dq_items (fold_left dq_append history d) = newest cap history /\
                 length (dq_items (fold_left dq_append history d))
                 = match cap with None => length history | Some k => Nat.min (length history) k end
  end.
Proof.
  intros T s h. pose proof (make_dequeue_capacity (T := T) s) as E.
  assert (Es : setting_means s = setting_capacity s) by (destruct s as [|[]|]; reflexivity).
  rewrite Es. destruct (setting_capacity s) as [cap|]; [|exact E].
  exists (Dq cap []). split; [exact E|].
  pose proof (dq_extend_newest (Dq cap (@nil T)) [] h) as H. unfold dq_extend in H.
  rewrite H by (destruct cap; reflexivity). simpl. split; [reflexivity|apply length_newest].
Qed.
Print Assumptions C01_recording_window.

Example C01_nonvacuous :
  setting_means (MLInt 2) = Some (Some 2) /\ newest (Some 2) [1;2;3;4;5] = [4;5]
  /\ setting_means (MLInt (-1)) = None.
Proof. repeat split. Qed.

(** * C02 *)

(** Full round trip into a new container, for names that do not contain the text [tensor_]. *)
Theorem C02_container_round_trip : forall (T : Type) (shape : T -> list nat) (c : container T),
  saveable shape c ->
  (forall n, In n (ckeys c) -> ~ occurs "tensor_" n) ->
  exists sd, state_dict shape c = Ok sd /\ load_state_dict empty_container sd = (c, [], None).
Proof. exact @round_trip. Qed.
Print Assumptions C02_container_round_trip.

(** Loading over an existing container (as pyfilter/filters/result.py:148 does): every saved name is replaced,
    every other name is kept. *)
Theorem C02_load_over_existing : forall (T : Type) (shape : T -> list nat) (c t : container T),
  saveable shape c ->
  (forall n, In n (ckeys c) -> ~ occurs "tensor_" n) ->
  exists sd t', state_dict shape c = Ok sd /\ load_state_dict t sd = (t', [], None) /\
    forall n, od_get n (c_tuples t') = match od_get n (c_tuples c) with Some v => Some v | None => od_get n (c_tuples t) end
           /\ od_get n (c_deques t') = match od_get n (c_deques c) with Some v => Some v | None => od_get n (c_deques t) end.
Proof. exact @load_over. Qed.
Print Assumptions C02_load_over_existing.

(** The structural hypotheses of [saveable] (unique names, capacities respected) hold in every container
    reachable by create/append/delete operations; what remains are the two conditions on names and shapes. *)
Theorem C02_reachable_structure : forall (T : Type) (os : list (op T)),
  let c := do_ops empty_container os in
  NoDup (od_keys (c_tuples c)) /\ NoDup (od_keys (c_deques c)) /\
  forall n d, In (n, d) (c_deques c) -> newest (dq_max d) (dq_items d) = dq_items d.
Proof. exact @reachable_structure. Qed.
Print Assumptions C02_reachable_structure.

(** Which names survive: exactly those without the text [tensor_]; a name is restored with every occurrence removed. *)
Theorem C02_name_restored_iff : forall (T : Type) (n : string) (v : list T),
  (exists c', load_state_dict empty_container [(tuple_key n, v)] = (c', [], None) /\ getitem c' n = Ok v)
  <-> ~ occurs "tensor_" n.
Proof.
  intros T n v.
  assert (E : load_state_dict (T := T) empty_container [(tuple_key n, v)]
              = (Cont [(str_replace "tensor_" "" n, v)] [], [], None)).
  { unfold load_state_dict. cbn [od_keys map filter fst]. rewrite load_filter_tuple.
    cbn [load_keys od_get od_del]. rewrite String.eqb_refl, load_entry_tuple. reflexivity. }
  rewrite E. rewrite <- (str_replace_fix_iff "tensor_" n) by discriminate. split.
  - intros (c' & H & G). injection H as <-. unfold getitem in G. cbn [c_tuples od_get] in G.
    destruct (String.eqb_spec n (str_replace "tensor_" "" n)); [congruence|]. discriminate.
  - intros H. eexists. split; [reflexivity|]. rewrite H. unfold getitem. cbn [c_tuples od_get].
    now rewrite String.eqb_refl.
Qed.
Print Assumptions C02_name_restored_iff.

(** Finding: without the proviso the property is false. *)
Theorem C02_round_trip_any_name_refuted : exists c sd c' : container nat * odict (list nat),
  saveable (fun _ => []) (fst c) /\ state_dict (fun _ => []) (fst c) = Ok (snd sd) /\
  load_state_dict empty_container (snd sd) = (fst c', [], None) /\
  getitem (fst c) "tensor_mean" = Ok [7] /\ getitem (fst c') "tensor_mean" = Raise GenericException /\
  getitem (fst c') "mean" = Ok [7].
Proof.
  pose (c := make_tuple (T := nat) empty_container "tensor_mean" (Some [7])).
  exists (c, []), (c, [("tensor_tuple__tensor_mean", [7])]), (Cont [("mean", [7])] [], []).
  repeat split; try reflexivity.
  - simpl. constructor; [intros []|constructor].
  - constructor.
  - intros n _ [].
  - intros n d [].
  - intros n v [[= <- <-]|[]]. reflexivity.
  - intros n d [].
Qed.
Print Assumptions C02_round_trip_any_name_refuted.

Definition example_container : container nat :=
  do_ops empty_container [CreateRecording "filter_means" (Some 2) [1;2;3]; CreateTuple "a__b" [4;5];
                            CreateRecording "ess" None [6]; Append "ess" 7].
Example C02_nonvacuous :
  saveable (fun _ => []) example_container /\
  (forall n, In n (ckeys example_container) -> ~ occurs "tensor_" n) /\
  state_dict (fun _ => []) example_container
  = Ok [("tensor_tuple__a__b", [4;5]); ("tensor_deque_2__filter_means", [2;3]); ("tensor_deque_None__ess", [6;7])].
Proof.
  split; [|split].
  - constructor; simpl.
    + repeat constructor; simpl; intuition congruence.
    + repeat constructor; simpl; intuition congruence.
    + intros n H; simpl in H. intuition; subst; discriminate.
    + intros n d H; simpl in H. intuition; match goal with H : (_, _) = (_, _) |- _ => injection H as <- <- end; reflexivity.
    + intros n d H; simpl in H. intuition; match goal with H : (_, _) = (_, _) |- _ => injection H as <- <- end; reflexivity.
    + intros n d H; simpl in H. intuition; match goal with H : (_, _) = (_, _) |- _ => injection H as <- <- end; reflexivity.
  - intros n H Hc. apply str_contains_spec in Hc. simpl in H.
    intuition; subst; discriminate.
  - reflexivity.
Qed.

(** * C03 *)

(** What is true: a successful load leaves nothing loadable behind, so loading the same dictionary again changes nothing. *)
Theorem C03_second_load_is_noop : forall (T : Type) (sd : odict (list T)) (c c' : container T) sd' (t : container T),
  NoDup (od_keys sd) -> load_state_dict c sd = (c', sd', None) ->
  load_state_dict t sd' = (t, sd', None) /\ (forall k v, In (k, v) sd' -> In (k, v) sd).
Proof.
  intros. split; [eapply second_load_noop; eassumption|].
  unfold load_state_dict in *. eapply load_keys_rest; eassumption.
Qed.
Print Assumptions C03_second_load_is_noop.

(** Finding: the saved dictionary cannot be loaded twice. *)
Theorem C03_load_twice_refuted : exists (c : container nat) sd c1 sd1 c2,
  state_dict (fun _ => []) c = Ok sd /\
  load_state_dict empty_container sd = (c1, sd1, None) /\ getitem c1 "ess" = Ok [6] /\
  load_state_dict empty_container sd1 = (c2, sd1, None) /\ getitem c2 "ess" = Raise GenericException.
Proof.
  exists (Cont [("ess", [6])] []), [("tensor_tuple__ess", [6])], (Cont [("ess", [6])] []), [], empty_container.
  repeat split.
Qed.
Print Assumptions C03_load_twice_refuted.

(** * C04 *)

Theorem C04_container_is_a_map : forall (T : Type) (os : list (op T)) (n : string),
  let c := do_ops empty_container os in
  let s := spec_run empty_view os in
  getitem c n = match spec_lookup s n with Some v => Ok v | None => Raise GenericException end /\
  (ccontains c n = true <-> spec_lookup s n <> None) /\
  (In n (ckeys c) <-> spec_lookup s n <> None) /\
  clen c = length (ckeys c) /\
  (forall k v, In (k, v) (combine (ckeys c) (cvalues c)) <->
               as_tuple s k = Some v \/ exists cap, as_recording s k = Some (cap, v)) /\
  (forall v, setitem c n v = Raise GenericException).
Proof.
  intros T os n c s.
  pose proof (do_ops_repr os _ _ (repr_empty (T := T))) as H. fold c s in H.
  pose proof (repr_lookup c s n H) as (H1 & H2 & H3).
  repeat split; try apply H1; try apply H2; try apply H3; try apply clen_keys;
    intros; now apply (repr_values c s k v H).
Qed.
Print Assumptions C04_container_is_a_map.

(** Each operation succeeds exactly when the abstract map allows it, from every reachable container. *)
Theorem C04_operations_refused_iff : forall (T : Type) (os : list (op T)) (o : op T),
  (exists e, do_op (do_ops empty_container os) o = Raise e)
  <-> spec_step (spec_run empty_view os) o = None.
Proof.
  intros T os o.
  pose proof (do_op_repr _ _ o (do_ops_repr os _ _ (repr_empty (T := T)))) as H.
  destruct (do_op _ o) as [c'|e], (spec_step _ o); try tauto; split; intros G; try discriminate.
  - destruct G; discriminate.
  - reflexivity.
  - now exists e.
Qed.
Print Assumptions C04_operations_refused_iff.

Theorem C04_constructor : forall (T : Type) (kwargs : odict (option (list T))) (n : string),
  NoDup (od_keys kwargs) ->
  getitem (container_init kwargs) n
  = match od_get n kwargs with Some (Some v) => Ok v | _ => Raise GenericException end.
Proof. exact @container_init_get. Qed.
Print Assumptions C04_constructor.

Example C04_nonvacuous :
  let os := [CreateTuple "a" [1]; CreateRecording "a" (Some 1) [2;3]; Delete "a"; Append "a" 9] in
  spec_lookup (spec_run empty_view os) "a" = Some [9] /\ getitem (do_ops empty_container os) "a" = Ok [9].
Proof. split; reflexivity. Qed.
