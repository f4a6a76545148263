(** Lemmas about collectors. *)
From Coq Require Import Reals String List Bool Arith Lia Lra.
From Verif.Model Require Import Base Xf Weights Container Pmmh Sequential Collectors.
From Verif.Spec Require Import PmmhSpec SequentialSpec CollectorsSpec.
From Verif.Proofs Require Import ContainerProofs WeightsProofs SequentialProofs.
From Verif.Props Require Import WeightsProps PmmhProps SequentialProps.
Import ListNotations.
Local Open Scope nat_scope.
Notation length := List.length.

Section Lemmas.
  Context {T F Y K : Type} (E : env T F Y K) (OK : env_ok E).
  Notation L := (e_lowest E).

  (** Weights a further reading does not change but for minus infinity. *)
  Definition tidy (w : list xf) : Prop := Forall (fun x => nan_to_num L (nan_to_num L x) = nan_to_num L x) w.
  Lemma tidy_map w : tidy (map (nan_to_num L) w).
  Proof. unfold tidy. rewrite Forall_map. apply Forall_forall. intros [r| | |] _; reflexivity. Qed.
  Lemma tidy_twice w : tidy w -> map (nan_to_num L) (map (nan_to_num L) w) = map (nan_to_num L) w.
  Proof. intros H. rewrite map_map. apply map_ext_in. intros x Hx. unfold tidy in H. rewrite Forall_forall in H. now apply H. Qed.
  Lemma get_ess_tidy w e w' : get_ess L w false = Ok (e, w') -> tidy w'.
  Proof. unfold get_ess, normalize. destruct w as [|x w]; [discriminate|]. cbn [bind]. intros Eq. injection Eq as _ <-. exact (tidy_map (x :: w)). Qed.
  Lemma absorb_tidy g y s g' s' : absorb E g y s = (g', Ok s') -> tidy (s_w s').
  Proof.
    unfold absorb. intros Eq. injection Eq as _ Eq. destruct (get_ess _ _ _) as [[e w']|e] eqn:Ee; cbn [bind] in Eq; [|discriminate]. injection Eq as <-. exact (get_ess_tidy _ _ _ Ee).
  Qed.
  Lemma zeros_tidy w : tidy (zeros w).
  Proof. unfold tidy, zeros. rewrite Forall_map. now apply Forall_forall. Qed.
  Lemma base_step_tidy b i g y s i' g' x : base_step E b i g y s = (i', g', Ok x) -> tidy (s_w (seen_by_callbacks x)).
  Proof.
    assert (On : forall (i1 : inst) (g1 : world) (r : res sstate), match r with Raise e => (i1, g1, Raise e) | Ok s1 => let (g2, r2) := absorb E g1 y s1 in (i1, g2, let! s2 := r2 in Ok (Same s2)) end = (i', g', Ok x) -> tidy (s_w (seen_by_callbacks x))).
    { intros i1 g1 [s1|e] Eq; [|discriminate]. destruct (absorb E g1 y s1) as [g2 r2] eqn:Ea. injection Eq as _ _ Eq. destruct r2 as [s2|]; cbn in Eq; [|discriminate]. injection Eq as <-. exact (absorb_tidy _ _ _ _ _ Ea). }
    destruct b as [thr d|bl d|c]; cbn [base_step].
    - destruct (do_update_particles _ _ _ _) as [i1 u]. destruct (if u then _ else _) as [g1 r]. apply On.
    - destruct (do_update_particles _ _ _ _) as [i1 u]. destruct (if u then _ else _) as [g1 r]. apply On.
    - destruct (s_data s) as [d|]; [|discriminate]. destruct (absorb _ _ _ _) as [g1 r1] eqn:Ea. destruct r1 as [s1|e]; [|discriminate]. destruct (_ || _).
      + destruct (pmmh_update E c (i_increases i) g1 s1) as [[n g2] r2] eqn:Ep. intros Eq. injection Eq as _ _ ->. unfold pmmh_update in Ep. destruct (s_data s1); [|discriminate]. destruct (normalize _ _) as [[p w']|] eqn:En; [|discriminate].
        assert (Tw : tidy w') by (unfold normalize in En; destruct (s_w s1) as [|x0 w0]; [discriminate|]; injection En as _ <-; exact (tidy_map (x0 :: w0))).
        destruct (gather _ _) as [rows|]; [|discriminate]. destruct (gather (s_fs s1) _) as [fs|]; [|discriminate]. destruct (pmmh_moves _ _ _ _ _ _ _ _ _ _ _ _ _) as [[[[ctx fs'] rnd] accs] low]. destruct low.
        * unfold increase_states in Ep. destruct (_ <? _); [discriminate|]. injection Ep as _ _ Ep. destruct (new_state _ _ _ _); cbn [bind] in Ep; [|discriminate]. injection Ep as <-. exact Tw.
        * injection Ep as _ _ Ep. rewrite <- Ep. apply zeros_tidy.
      + intros Eq. injection Eq as _ _ <-. exact (absorb_tidy _ _ _ _ _ Ea).
  Qed.

  (** The container: no tuples, all deques unbounded. *)
  Definition plain_recs (recs : container (list xf)) : Prop := c_tuples recs = [] /\ forall n d, od_get n (c_deques recs) = Some d -> dq_max d = None.
  Lemma call_plain (k : collector T F Y) g y s recs recs' : plain_recs recs -> call k g y s recs = Ok recs' ->
    plain_recs recs' /\ exists v, k_fun k g y s = Ok v /\
      forall n, recording recs' n = recording recs n ++ if string_dec n (k_name k) then [v] else [].
  Proof.
    intros [P1 P2]. unfold call. set (r0 := if ccontains _ _ then _ else _).
    assert (H0 : exists recs0 d, r0 = Ok recs0 /\ plain_recs recs0 /\ od_get (k_name k) (c_deques recs0) = Some d /\ forall n, recording recs0 n = recording recs n).
    { unfold r0, ccontains. rewrite P1. change (od_mem (k_name k) []) with false. cbn [orb]. unfold od_mem. destruct (od_get (k_name k) (c_deques recs)) as [d|] eqn:Ed.
      - exists recs, d. repeat split; auto.
      - cbn [make_deque make_dequeue bind]. eexists _, _. split; [reflexivity|]. split; [split; [exact P1|]|].
        + cbn [c_deques]. intros n d. rewrite od_get_set. destruct (string_dec n (k_name k)); [intros Eq; injection Eq as <-; reflexivity|apply P2].
        + cbn [c_deques]. rewrite od_get_set. destruct (string_dec (k_name k) (k_name k)) as [_|N]; [|now contradiction N]. split; [reflexivity|].
          intros n. unfold recording, getitem. cbn [c_tuples c_deques]. rewrite P1. cbn [od_get]. rewrite od_get_set. destruct (string_dec n (k_name k)) as [->|]; [|reflexivity]. rewrite Ed. reflexivity. }
    destruct H0 as (recs0 & d & -> & [Q1 Q2] & Ed & Er). cbn [bind]. destruct (k_fun k g y s) as [v|e]; cbn [bind]; [|discriminate]. unfold append_to. rewrite Q1. change (od_mem (k_name k) []) with false. cbv iota. rewrite Ed.
    intros Eq. injection Eq as <-. split.
    - split; [reflexivity|]. cbn [c_deques]. intros n d'. rewrite od_get_set. destruct (string_dec n (k_name k)) as [->|]; [|apply Q2]. intros Eq. injection Eq as <-. unfold dq_append. rewrite (Q2 _ _ Ed). reflexivity.
    - exists v. split; [reflexivity|]. intros n. rewrite <- Er. unfold recording, getitem. cbn [c_tuples c_deques]. rewrite Q1. cbn [od_get]. rewrite od_get_set. destruct (string_dec n (k_name k)) as [->|].
      + rewrite Ed. unfold dq_append. rewrite (Q2 _ _ Ed). reflexivity.
      + now rewrite app_nil_r.
  Qed.

  (** States that differ by readings of the weights only. *)
  Definition alike (t s : @sstate F Y) : Prop := s_fs t = s_fs s /\ map (nan_to_num L) (s_w t) = map (nan_to_num L) (s_w s).
  Lemma alike_refl s : alike s s. Proof. split; reflexivity. Qed.
  Lemma read_alike s : state_ok E s -> tidy (s_w s) -> alike s (read_weights E s) /\ state_ok E (read_weights E s) /\ tidy (s_w (read_weights E s)).
  Proof.
    intros WS Ti. rewrite (read_frame E OK s WS). cbn [with_w s_w s_fs]. split; [split; [reflexivity|symmetry; exact (tidy_twice _ Ti)]|]. split; [|apply tidy_map]. split; [cbn; rewrite map_length; apply WS|apply WS].
  Qed.
  Lemma run_collectors_values (ks : list (collector T F Y)) : forall n g y s recs s' recs', plain_recs recs -> state_ok E s -> tidy (s_w s) -> NoDup (map k_name ks) -> run_collectors E ks g y s recs = Ok (s', recs') ->
    plain_recs recs' /\ state_ok E s' /\ alike s s' /\ snd (run_callbacks E (as_callbacks n ks) y s) = s' /\
    (forall name, ~ In name (map k_name ks) -> recording recs' name = recording recs name) /\
    forall k, In k ks -> exists v t, recording recs' (k_name k) = recording recs (k_name k) ++ [v] /\ k_fun k g y t = Ok v /\ state_ok E t /\ alike t s'.
  Proof.
    induction ks as [|k ks IH]; intros n g y s recs s' recs' P WS Ti Nd; cbn [run_collectors as_callbacks run_callbacks].
    - intros Eq. injection Eq as <- <-. split; [exact P|]. split; [exact WS|]. split; [apply alike_refl|]. split; [reflexivity|]. split; [reflexivity|]. intros k [].
    - cbn [map] in Nd. apply NoDup_cons_iff in Nd as [Ni Nd]. destruct (call k g y s recs) as [recs1|e] eqn:Ec; cbn [bind]; [|discriminate]. destruct (call_plain _ _ _ _ _ _ P Ec) as (P1 & v & Ev & Er). set (s1 := if k_reads k then read_weights E s else s).
      assert (S1 : alike s s1 /\ state_ok E s1 /\ tidy (s_w s1)) by (unfold s1; destruct (k_reads k); [now apply read_alike|]; split; [apply alike_refl|]; split; assumption). destruct S1 as (A1 & W1 & T1).
      intros Eq. destruct (IH (S n) g y s1 recs1 s' recs' P1 W1 T1 Nd Eq) as (P2 & W2 & A2 & Ec2 & Eo & Ei). split; [exact P2|]. split; [exact W2|]. assert (A : alike s s') by (split; [now rewrite (proj1 A1), (proj1 A2)|now rewrite (proj2 A1), (proj2 A2)]).
      split; [exact A|]. split; [|split].
      + cbn [cb_reads cb_id]. fold s1. destruct (run_callbacks E (as_callbacks (S n) ks) y s1) as [l s2]. cbn [snd] in *. exact Ec2.
      + intros name Hn. cbn [map In] in Hn. rewrite Eo, Er by tauto. destruct (string_dec name (k_name k)) as [->|]; [tauto|]. now rewrite app_nil_r.
      + intros k' [<-|Hk].
        * exists v, s. rewrite (Eo _ Ni), Er. destruct (string_dec (k_name k) (k_name k)) as [_|N]; [|now contradiction N]. repeat split; auto; apply A || apply WS.
        * destruct (Ei k' Hk) as (v' & t & E1 & E2 & E2' & E3). exists v', t. rewrite E1, Er. destruct (string_dec (k_name k') (k_name k)) as [Eq'|]; [|rewrite app_nil_r; repeat split; auto; apply E3 || apply E2'].
          exfalso. apply Ni. rewrite <- Eq'. now apply in_map.
  Qed.
End Lemmas.
