(** Property C122 (pyfilter/inference/batch/mcmc/state.py, pyfilter/inference/state.py): the recorded chain of PMMH. *)
From Coq Require Import Reals List Bool Arith ZArith String Lia Lra.
From Verif.Model Require Import Base Xf Container Result PmmhState.
From Verif.Spec Require Import ResultSpec PmmhStateSpec.
From Verif.Proofs Require Import ResultProofs ResultReach ResultRun ResultExchange ResultSave.
From Verif.Props Require Import ResultProps ResultExchangeProps ResultSaveProps.
Import ListNotations.
Local Open Scope string_scope.
Local Open Scope nat_scope.
Local Open Scope list_scope.

Lemma value_of_get {V} n (l : odict V) : value_of n l = od_get n l.
Proof. induction l as [|[k v] l IH]; cbn; [reflexivity|]. now rewrite IH. Qed.
Lemma get_set {V} n k v (l : odict V) : od_get n (od_set k v l) = if String.eqb n k then Some v else od_get n l.
Proof.
  induction l as [|[k' v'] l IH]; cbn; [reflexivity|]. destruct (String.eqb_spec k k') as [->|D]; cbn.
  - destruct (String.eqb n k'); reflexivity.
  - rewrite IH. destruct (String.eqb_spec n k') as [->|]; [|reflexivity]. destruct (String.eqb_spec k' k); congruence.
Qed.
Lemma keys_set {V} k v (l : odict V) : In k (map fst l) -> map fst (od_set k v l) = map fst l.
Proof.
  induction l as [|[k' v'] l IH]; cbn; [tauto|]. intros H. destruct (String.eqb_spec k k') as [->|D]; cbn; [reflexivity|].
  f_equal. apply IH. destruct H; congruence.
Qed.
Lemma get_in {V} n (l : odict V) : In n (map fst l) -> exists v, od_get n l = Some v.
Proof.
  induction l as [|[k v] l IH]; cbn; [tauto|]. intros H. destruct (String.eqb_spec n k); [now exists v|]. apply IH. destruct H; congruence.
Qed.
Lemma get_out {V} n (l : odict V) : ~ In n (map fst l) -> od_get n l = None.
Proof.
  induction l as [|[k v] l IH]; cbn; [reflexivity|]. intros H. destruct (String.eqb_spec n k); [exfalso; apply H; left; congruence|]. apply IH. tauto.
Qed.

Section Record_.
  Context {P : Type}.
  Variable shape : P -> list nat.

  (** One call extends the samples of every name given. *)
  Lemma update_spec : forall (e : odict P) samples, NoDup (map fst e) -> incl (map fst e) (map fst samples) ->
    (forall n p l q, od_get n e = Some p -> od_get n samples = Some l -> In q l -> shape q = shape p) ->
    exists s, update_chain shape samples e = (s, None) /\ map fst s = map fst samples /\
      forall n, od_get n s = match od_get n e, od_get n samples with Some p, Some l => Some (l ++ [p]) | _, o => o end.
  Proof.
    induction e as [|[n p] e IH]; intros samples N S Sh; cbn [update_chain].
    { exists samples. repeat split. }
    cbn [map fst] in N, S. apply NoDup_cons_iff in N. destruct N as [Nn N].
    destruct (get_in n samples (S n (or_introl eq_refl))) as [l El]. rewrite El.
    replace (forallb _ l) with true.
    2: { symmetry. apply forallb_forall. intros q Hq. destruct (list_eq_dec _ _ _) as [|D]; [reflexivity|]. exfalso. apply D.
         apply (Sh n p l q); [cbn; now rewrite String.eqb_refl|exact El|exact Hq]. }
    assert (Ks : map fst (od_set n (l ++ [p]) samples) = map fst samples) by (apply keys_set, S; now left).
    destruct (IH (od_set n (l ++ [p]) samples)) as (s & E & K & G).
    - exact N.
    - rewrite Ks. intros k Hk. apply S. now right.
    - intros k q l' x Hk Hl Hx. rewrite get_set in Hl. destruct (String.eqb_spec k n) as [->|D].
      + rewrite get_out in Hk by exact Nn. discriminate.
      + apply (Sh k q l' x); [|exact Hl|exact Hx]. cbn. destruct (String.eqb_spec k n); [congruence|exact Hk].
    - exists s. split; [exact E|]. split; [congruence|]. intros k. rewrite G, get_set. cbn [od_get].
      destruct (String.eqb_spec k n) as [->|D]; [|reflexivity]. rewrite (get_out n e) by exact Nn. now rewrite El.
  Qed.

  Lemma record_spec (all : list (odict P)) : regular shape all -> forall todo done samples,
    done <> [] -> all = (done ++ todo)%list -> records done samples ->
    exists s, record_chain shape samples todo = (s, None) /\ records all s.
  Proof.
    intros [Rn Rs]. induction todo as [|e todo IH]; intros done samples Hd Ha Hr; cbn [record_chain].
    { exists samples. split; [reflexivity|]. now rewrite Ha, app_nil_r. }
    assert (Ie : In e all) by (rewrite Ha; apply in_or_app; right; now left).
    assert (Hh : hd [] all = hd [] done) by (rewrite Ha; destruct done; [congruence|reflexivity]).
    destruct Hr as [K G]. destruct (Rn e Ie) as [Ne Se]. rewrite Hh, <- K in Se.
    destruct (update_spec e samples) as (s & E & Ks & Gs).
    - exact Ne.
    - intros n Hn. now apply Se.
    - intros n p l q Hp Hl Hq. assert (Hn : In n (map fst samples)).
      { destruct (in_dec string_dec n (map fst samples)) as [|D]; [assumption|]. rewrite get_out in Hl by exact D. discriminate. }
      destruct (G n Hn) as (l' & E1 & E2). rewrite value_of_get, Hl in E1. injection E1 as <-.
      apply (in_map Some) in Hq. rewrite E2 in Hq. apply in_map_iff in Hq. destruct Hq as (e' & Ev & He').
      apply (Rs e' e n q p); [rewrite Ha; apply in_or_app; now left|exact Ie|exact Ev|now rewrite value_of_get].
    - rewrite E. apply (IH (done ++ [e])%list).
      + destruct done; discriminate.
      + rewrite Ha, <- app_assoc. reflexivity.
      + split; [rewrite Ks, K; destruct done; [congruence|reflexivity]|].
        intros n Hn. rewrite Ks in Hn. destruct (G n Hn) as (l & E1 & E2). rewrite value_of_get in E1.
        destruct (get_in n e (proj2 (Se n) Hn)) as [p Ep].
        exists (l ++ [p])%list. rewrite value_of_get, Gs, Ep, E1. split; [reflexivity|].
        rewrite !map_app, E2. cbn [map]. now rewrite value_of_get, Ep.
  Qed.
End Record_.

(** The chain of a fit: under every parameter the initial value and the value after each iteration, in order. *)
Theorem C122_recorded : forall {P} (shape : P -> list nat) initial iterations, regular shape (initial :: iterations) ->
  exists s, record_chain shape (first_samples initial) iterations = (s, None) /\ records (initial :: iterations) s.
Proof.
  intros P shape initial iterations H. apply (record_spec shape (initial :: iterations) H iterations [initial]); [discriminate|reflexivity|].
  destruct H as [Hn _]. destruct (Hn initial (or_introl eq_refl)) as [N _].
  assert (K : map fst (first_samples initial) = map fst initial) by (unfold first_samples; rewrite map_map; reflexivity).
  split; [exact K|]. intros n Hn'. rewrite K in Hn'. clear -Hn'. rewrite value_of_get.
  induction initial as [|[k v] r IH]; cbn in *; [tauto|]. destruct (String.eqb_spec n k).
  - exists [v]. split; reflexivity.
  - apply IH. destruct Hn'; congruence.
Qed.
Print Assumptions C122_recorded.

(** A sample with a parameter the chain does not have is refused, but the parameters in front of it have been recorded. *)
Theorem C122_stranger_refuted : forall {P} (shape : P -> list nat) samples before n p after,
  NoDup (map fst before) -> incl (map fst before) (map fst samples) -> ~ In n (map fst samples) ->
  (forall k q l x, value_of k before = Some q -> value_of k samples = Some l -> In x l -> shape x = shape q) ->
  exists s, update_chain shape samples (before ++ (n, p) :: after) = (s, Some KeyError) /\
    forall k, value_of k s = match value_of k before, value_of k samples with Some q, Some l => Some (l ++ [q]) | _, o => o end.
Proof.
  intros P shape samples before n p after N I D Sh.
  destruct (update_spec shape before samples) as (s & E & K & G); [exact N|exact I| |].
  { intros k q l x. rewrite <- !value_of_get. apply Sh. }
  exists s. split; [|intros k; rewrite !value_of_get; apply G].
  assert (A : forall b a t s0, update_chain shape t b = (s0, None) -> update_chain shape t (b ++ a) = update_chain shape s0 a).
  { clear. induction b as [|[m q] b IH]; intros a t s0 E; cbn [update_chain app] in *; [now injection E as ->|].
    destruct (od_get m t); [|discriminate]. destruct (forallb _ _); [|discriminate]. now apply IH. }
  rewrite (A _ _ _ _ E). cbn [update_chain]. rewrite get_out by now rewrite K. reflexivity.
Qed.
Print Assumptions C122_stranger_refuted.

(** Saving a result, optionally writing to disk, and loading it into another one. *)
Definition pmmh_transfer {P} (h : heap) (m m0 : @pmmh_result P) (disk : bool) : res (heap * pmmh_result) :=
  let! (h, d) := pmmh_state_dict h m in
  let (h, df) := if disk then serialise h (p_filter d) else (h, p_filter d) in
  let! (h, m', d') := pmmh_load h m0 (PmmhSaved (p_tt d) df) in
  Ok (h, m').

(** The filter result of the last position is restored (as in C35), and the object loaded into keeps its own chain. *)
Theorem C122_load_partial : forall {P} b h r o k r0 o0 (first first0 : odict P) (samples samples0 : odict (list P)) disk,
  reachable b h r o -> latest r = Ok k -> (forall name, In name moment_names -> one_shape (rep_moment h r name)) ->
  reachable b h r0 o0 -> dq_items (r_states r0) = [o0] -> ~ In o0 (dq_items (r_states r)) ->
  map cell_size (v_x (view h o0)) = map cell_size (v_x (view h k)) ->
  exists h' (m' : @pmmh_result P), pmmh_transfer h (PmmhResult (m_tt (new_pmmh_result first r)) r samples) (PmmhResult (m_tt (new_pmmh_result first0 r0)) r0 samples0) disk = Ok (h', m') /\
    rep_ll h' (m_filter m') = rep_ll h r /\ latest (m_filter m') = Ok o0 /\ view h' o0 = view h k /\
    (forall name, In name moment_names -> rep_moment h' (m_filter m') name = rep_moment h r name) /\
    m_samples m' = samples0.
Proof.
  intros P b h r o k r0 o0 first first0 samples samples0 disk H1 H2 H3 H4 H5 H6 H7.
  destruct (C35_round_trip b h r o k r0 o0 disk H1 H2 H3 H4 H5 H6 H7) as (h' & d & r' & E & L & M & La & V & _).
  unfold transfer in E. unfold pmmh_transfer, pmmh_state_dict, pmmh_load. cbn [new_pmmh_result m_tt m_filter m_samples].
  cbn [Container.state_dict empty_container Container.c_tuples Container.c_deques Container.sd_tuples Container.sd_deques bind copy_dict].
  destruct (res_state_dict h r) as [[h1 d1]|]; [|discriminate]. cbn [bind p_filter p_tt] in E |- *.
  destruct (if disk then serialise h1 d1 else (h1, d1)) as [h2 d2]. cbn [p_filter p_tt].
  cbn [Container.load_state_dict od_keys map filter Container.load_keys].
  destruct (res_load h2 r0 d2) as [[[h3 r3] d3]|]; [|discriminate]. cbn [bind] in E |- *. injection E as -> -> ->.
  exists h', (PmmhResult empty_container r' samples0). repeat split; assumption.
Qed.
Print Assumptions C122_load_partial.

(** The chain is not saved: results with the same filter result and any chains have the same dictionary, so that no way of
    loading it can restore the chain. *)
Theorem C122_save_refuted :
  (forall {P} h tt r (samples samples' : odict (list P)), pmmh_state_dict h (PmmhResult tt r samples) = pmmh_state_dict h (PmmhResult tt r samples')) /\
  exists h r o (s : odict (list xf)) (initial : odict xf), reachable 2 h r o /\
    record_chain (fun _ => []) (first_samples initial) [[("sigma", Fin 2)]] = (s, None) /\ records [initial; [("sigma", Fin 2)]] s /\
    ~ exists load : pmmh_saved -> odict (list xf), forall h1 d samples,
        pmmh_state_dict h (PmmhResult (m_tt (new_pmmh_result initial r)) r samples) = Ok (h1, d) -> load d = samples.
Proof.
  split; [reflexivity|].
  destruct C35_nonvacuous as (h & r & o & r0 & o0 & H1 & H2 & H3 & H4 & H5 & H6 & H7 & _).
  exists h, r, o, [("sigma", [Fin 1; Fin 2])], [("sigma", Fin 1)]. split; [exact H1|]. split; [reflexivity|]. split.
  { split; [reflexivity|]. intros n [<-|[]]. exists [Fin 1; Fin 2]. split; reflexivity. }
  intros [load H].
  assert (exists h1 d, forall samples : odict (list xf), pmmh_state_dict h (PmmhResult (m_tt (new_pmmh_result [("sigma", Fin 1)] r)) r samples) = Ok (h1, d)) as (h1 & d & E).
  { destruct (C122_load_partial (P := xf) 2 h r o o r0 o0 [("sigma", Fin 1)] [] [] [] false H1 H2 H3 H4 H5 H6 H7) as (h' & m' & E & _).
    unfold pmmh_transfer in E.
    destruct (pmmh_state_dict h (PmmhResult (m_tt (new_pmmh_result [("sigma", Fin 1)] r)) r [])) as [[h1 d]|] eqn:E1; [|discriminate].
    exists h1, d. intros samples. exact E1. }
  pose proof (H h1 d [] (E [])) as A. pose proof (H h1 d [("sigma", [])] (E _)) as B. rewrite A in B. discriminate.
Qed.
Print Assumptions C122_save_refuted.

(** Two chains and two parameters, two iterations, the second naming the parameters in the other order; a filter result as in C35. *)
Example C122_nonvacuous :
  let initial := [("sigma", [1; 2]); ("beta", [3; 4])] in
  let iterations := [[("sigma", [1; 5]); ("beta", [3; 6])]; [("beta", [7; 6]); ("sigma", [8; 5])]] in
  regular (fun l : list nat => [List.length l]) (initial :: iterations) /\
  record_chain (fun l : list nat => [List.length l]) (first_samples initial) iterations =
    ([("sigma", [[1; 2]; [1; 5]; [8; 5]]); ("beta", [[3; 4]; [3; 6]; [7; 6]])], None) /\
  update_chain (fun l : list nat => [List.length l]) (first_samples initial) [("sigma", [1; 5]); ("gamma", [0; 0])] =
    ([("sigma", [[1; 2]; [1; 5]]); ("beta", [[3; 4]])], Some KeyError) /\
  exists h r o r0 o0, reachable 2 h r o /\ latest r = Ok o /\ (forall name, In name moment_names -> one_shape (rep_moment h r name)) /\
    reachable 2 h r0 o0 /\ dq_items (r_states r0) = [o0] /\ ~ In o0 (dq_items (r_states r)) /\
    map cell_size (v_x (view h o0)) = map cell_size (v_x (view h o)).
Proof.
  intros initial iterations. split; [|split; [reflexivity|split; [reflexivity|]]].
  - split.
    + intros e He. cbn [hd initial iterations] in *. cbn in He.
      destruct He as [<-|[<-|[<-|[]]]]; (split; [cbn; repeat constructor; cbn; intuition discriminate|cbn; tauto]).
    + assert (Q : forall e n p, In e (initial :: iterations) -> value_of n e = Some p -> List.length p = 2).
      { intros e n p He. cbn in He. destruct He as [<-|[<-|[<-|[]]]]; cbn;
          repeat (match goal with |- context [String.eqb ?a ?b] => destruct (String.eqb a b) end); intros [= <-]; reflexivity. }
      intros e e' n p p' He He' Hp Hp'. now rewrite (Q e n p He Hp), (Q e' n p' He' Hp').
  - destruct C35_nonvacuous as (h & r & o & r0 & o0 & H1 & H2 & H3 & H4 & H5 & H6 & H7 & _). exists h, r, o, r0, o0. repeat split; assumption.
Qed.
