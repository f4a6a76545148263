(** Property C34 (pyfilter/filters/result.py: exchange). *)
From Coq Require Import Reals List Bool Arith ZArith String Lia Lra.
From Verif.Model Require Import Base Xf Container Result.
From Verif.Spec Require ContainerSpec.
From Verif.Spec Require Import ResultSpec.
From Verif.Proofs Require Import ResultProofs ResultReach ResultRun ResultExchange.
From Verif.Props Require Import ResultProps.
Import ListNotations.
Local Open Scope list_scope.
Local Open Scope nat_scope.

Lemma unchanged_reports h h' r o : two_deques r -> h_objs h' = h_objs h ->
  (forall a, In a (footprint h r o) -> get h' a = get h a) -> same_reports h h' r o.
Proof.
  intros (dm & dv & W) EO H. assert (Ob : forall k, obj h' k = obj h k) by (intros k; unfold obj; now rewrite EO).
  assert (Hr : forall a, In a (recorded r) -> get h' a = get h a) by (intros a Ha; apply H; apply in_footprint; now left).
  assert (Hv : forall k, In k (objects r o) -> view h' k = view h k).
  { intros k Hk. unfold view. rewrite Ob.
    assert (Hf : forall a, In a (fields (obj h k)) -> get h' a = get h a).
    { intros a Ha. apply H. apply in_footprint. right. now exists k. }
    f_equal; apply Hf; cbn; tauto. }
  rewrite (with_recorded _ _ _ W) in Hr.
  split; [apply Hr; now left|]. split; [|split].
  - intros name [<-|[<-|[]]].
    + rewrite !(rep_moment_means _ _ _ _ W). apply map_ext_in. intros a Ha. apply Hr. right. apply in_or_app. now left.
    + rewrite !(rep_moment_vars _ _ _ _ W). apply map_ext_in. intros a Ha. apply Hr. right. apply in_or_app. now right.
  - apply map_ext_in. intros k Hk. apply Hv. now right.
  - apply Hv. now left.
Qed.

Lemma nth_error_combine {A B} (l : list A) : forall (l' : list B) i x y,
  nth_error l i = Some x -> nth_error l' i = Some y -> In (x, y) (combine l l').
Proof.
  induction l as [|a l IH]; intros [|b l'] [|i] x y H1 H2; try discriminate; cbn in *.
  - injection H1 as ->. injection H2 as ->. now left.
  - right. now apply (IH l' i).
Qed.

Lemma merged_deque h h' mask (l l' : list addr) :
  (forall a s, In (a, s) (combine l l') -> merges mask (get h a) (get h s) (get h' a)) ->
  (forall i a, nth_error l i = Some a -> nth_error l' i = None -> get h' a = get h a) ->
  merges_lists mask (map (get h) l) (map (get h) l') (map (get h') l).
Proof.
  intros H1 H2. split; [now rewrite !map_length|]. intros i t Ht.
  rewrite nth_error_map in Ht. destruct (nth_error l i) as [a|] eqn:Ea; [|discriminate]. injection Ht as <-.
  exists (get h a). rewrite !nth_error_map, Ea. split; [reflexivity|].
  destruct (nth_error l' i) as [s|] eqn:Es; cbn [option_map].
  - apply H1. now apply (nth_error_combine l l' i).
  - now apply (H2 i).
Qed.

(** True of any two results that share nothing, provided tensors shared inside the receiving result are paired with
    equal entries of the other one. *)
Theorem C34_exchange_partial : forall b h r o r' o' mask,
  reachable b h r o -> reachable b h r' o' -> separate h r o r' o' -> List.length mask = b -> aligned h mask r r' ->
  (forall name, In name moment_names -> List.length (rep_moment h r name) = List.length (rep_moment h r' name)) ->
  exists h', exchange h r r' mask = Ok h' /\
    merges mask (rep_ll h r) (rep_ll h r') (rep_ll h' r) /\
    (forall name, In name moment_names -> merges_lists mask (rep_moment h r name) (rep_moment h r' name) (rep_moment h' r name)) /\
    (forall i k k', nth_error (dq_items (r_states r)) i = Some k -> nth_error (dq_items (r_states r')) i = Some k' ->
       merges_view mask (view h k) (view h k') (view h' k)) /\
    same_reports h h' r' o'.
Proof.
  intros b h r o r' o' mask HR HR' Hsep Hm Hal Hlen. apply reachable_inv in HR, HR'. rename HR into HI. rename HR' into HI'.
  destruct (exchange_spec b h r o r' o' mask HI HI' Hsep Hm) as (h' & E & (S1 & S2 & S3) & Un & Me).
  assert (Hme : forall a s, In (a, s) (corresponding h r r') -> merges mask (get h a) (get h s) (get h' a)).
  { intros a s Hin. apply Me; [exact Hin|]. intros s' Hs'. now apply (Hal a). }
  exists h'. split; [exact E|]. split; [apply Hme; now left|].
  destruct (iv_two _ _ _ _ HI) as (dm & dv & W). destruct (iv_two _ _ _ _ HI') as (dm' & dv' & W').
  assert (Hcm : forall a s, In (a, s) (combine (dq_items dm) (dq_items dm')) \/ In (a, s) (combine (dq_items dv) (dq_items dv')) ->
     In (a, s) (corresponding h r r')).
  { intros a s H. right. apply in_or_app. left. unfold cvalues. rewrite W, W'.
    cbn [c_tuples c_deques map app combine List.concat fst snd od_values]. rewrite !in_app_iff. tauto. }
  split.
  { intros name Hn. pose proof (Hlen name Hn) as L. destruct Hn as [<-|[<-|[]]].
    - rewrite !(rep_moment_means _ _ _ _ W), !(rep_moment_means _ _ _ _ W') in *. rewrite !map_length in L. apply merged_deque.
      + intros a s Hin. apply Hme, Hcm. now left.
      + intros i a Ha Hn. apply nth_error_None in Hn. assert (nth_error (dq_items dm) i <> None) by congruence.
        apply nth_error_Some in H. lia.
    - rewrite !(rep_moment_vars _ _ _ _ W), !(rep_moment_vars _ _ _ _ W') in *. rewrite !map_length in L. apply merged_deque.
      + intros a s Hin. apply Hme, Hcm. now right.
      + intros i a Ha Hn. apply nth_error_None in Hn. assert (nth_error (dq_items dv) i <> None) by congruence.
        apply nth_error_Some in H. lia. }
  split.
  { intros i k k' Hk Hk'. pose proof (nth_error_combine _ _ i k k' Hk Hk') as Hc.
    assert (Hf : forall a s, In (a, s) (combine (fields (obj h k)) (fields (obj h k'))) -> merges mask (get h a) (get h s) (get h' a)).
    { intros a s Hin. apply Hme. right. apply in_or_app. right. apply in_flat_map. exists (k, k'). split; [exact Hc|exact Hin]. }
    assert (Ob : obj h' k = obj h k) by (unfold obj; now rewrite S2).
    unfold merges_view, view. cbn [v_time v_x v_w v_ll v_inds v_mean v_var]. rewrite Ob.
    split; [reflexivity|]. do 5 (split; [apply Hf; cbn; tauto|]). apply Hf; cbn; tauto. }
  apply unchanged_reports; [apply HI'|exact S2|].
  intros a Ha. apply Un. intros Hc. destruct Hsep as [Hs _]. exact (Hs a Hc Ha).
Qed.
Print Assumptions C34_exchange_partial.

Lemma coherent_recorded b h r o : Inv b h r o -> latest_recorded h r o -> coherent h r o.
Proof.
  intros HI [A B]. destruct (iv_two _ _ _ _ HI) as (dm & dv & W).
  rewrite (rep_moment_means _ _ _ _ W) in A. rewrite (rep_moment_vars _ _ _ _ W) in B.
  assert (Hl : forall l, l <> [] -> List.last (map (get h) l) [] = get h (List.last l 0)).
  { intros l Hne. destruct (exists_last Hne) as (m & z & ->). rewrite map_app. cbn [map]. now rewrite !last_last. }
  split; [rewrite (with_means _ _ _ W)|rewrite (with_vars _ _ _ W)]; intros Hne; rewrite <- (Hl _ Hne).
  - apply A. intros Hc. apply map_eq_nil in Hc. contradiction.
  - apply B. intros Hc. apply map_eq_nil in Hc. contradiction.
Qed.
Lemma recorded_coherent b h r o : Inv b h r o -> coherent h r o -> latest_recorded h r o.
Proof.
  intros HI [A B]. destruct (iv_two _ _ _ _ HI) as (dm & dv & W).
  assert (Hl : forall l, l <> [] -> List.last (map (get h) l) [] = get h (List.last l 0)).
  { intros l Hne. destruct (exists_last Hne) as (m & z & ->). rewrite map_app. cbn [map]. now rewrite !last_last. }
  rewrite (with_means _ _ _ W) in A. rewrite (with_vars _ _ _ W) in B.
  split; [rewrite (rep_moment_means _ _ _ _ W)|rewrite (rep_moment_vars _ _ _ _ W)]; intros Hne.
  - rewrite (Hl (dq_items dm)) by (intros Hc; apply Hne; now rewrite Hc). apply A. intros Hc. apply Hne. now rewrite Hc.
  - rewrite (Hl (dq_items dv)) by (intros Hc; apply Hne; now rewrite Hc). apply B. intros Hc. apply Hne. now rewrite Hc.
Qed.

(** Recording only the latest state (the default), the exchange is exact. *)
Theorem C34_latest_state_only : forall b h r o r' o' mask,
  reachable b h r o -> reachable b h r' o' -> separate h r o r' o' -> List.length mask = b ->
  dq_max (r_states r) = Some 1 -> dq_max (r_states r') = Some 1 ->
  s_ll (obj h o) <> r_ll r -> latest_recorded h r' o' ->
  (forall name, In name moment_names -> List.length (rep_moment h r name) = List.length (rep_moment h r' name)) ->
  exists h', exchange h r r' mask = Ok h' /\ latest r = Ok o /\ latest r' = Ok o' /\
    merges mask (rep_ll h r) (rep_ll h r') (rep_ll h' r) /\
    (forall name, In name moment_names -> merges_lists mask (rep_moment h r name) (rep_moment h r' name) (rep_moment h' r name)) /\
    merges_view mask (view h o) (view h o') (view h' o) /\
    same_reports h h' r' o'.
Proof.
  intros b h r o r' o' mask HR HR' Hsep Hm M1 M2 Hll Hlr Hlen.
  pose proof (reachable_latest _ _ _ _ HR M1) as LO. pose proof (reachable_latest _ _ _ _ HR' M2) as LO'.
  pose proof (reachable_inv _ _ _ _ HR) as HI. pose proof (reachable_inv _ _ _ _ HR') as HI'.
  assert (Hal : aligned h mask r r').
  { apply (aligned_latest b h r o r' o'); auto.
    - now apply (coherent_recorded b).
    - destruct (iv_two _ _ _ _ HI) as (dm & dv & W). destruct (iv_two _ _ _ _ HI') as (dm' & dv' & W').
      pose proof (Hlen "filter_means"%string ltac:(cbn; tauto)) as L.
      rewrite (rep_moment_means _ _ _ _ W), (rep_moment_means _ _ _ _ W'), !map_length in L.
      now rewrite (with_means _ _ _ W), (with_means _ _ _ W').
    - destruct (iv_two _ _ _ _ HI) as (dm & dv & W). destruct (iv_two _ _ _ _ HI') as (dm' & dv' & W').
      pose proof (Hlen "filter_variances"%string ltac:(cbn; tauto)) as L.
      rewrite (rep_moment_vars _ _ _ _ W), (rep_moment_vars _ _ _ _ W'), !map_length in L.
      now rewrite (with_vars _ _ _ W), (with_vars _ _ _ W'). }
  destruct (C34_exchange_partial b h r o r' o' mask HR HR' Hsep Hm Hal Hlen) as (h' & E & A & B & C & D).
  exists h'. split; [exact E|]. unfold latest. rewrite (lo_items _ _ _ LO), (lo_items _ _ _ LO'). cbn [rev app].
  split; [reflexivity|]. split; [reflexivity|]. split; [exact A|]. split; [exact B|]. split; [|exact D].
  apply (C 0 o o'); [now rewrite (lo_items _ _ _ LO)|now rewrite (lo_items _ _ _ LO')].
Qed.
Print Assumptions C34_latest_state_only.

(** A new run of the filter beside any existing result, as the particle Metropolis-Hastings kernel makes one, always
    meets the conditions and leaves the existing result alone. *)
Theorem C34_new_run_separate : forall b h r o time x w ll inds mean var rs rm cs,
  reachable b h r o ->
  List.length x = b -> List.length w = b -> List.length ll = b -> List.length inds = b -> List.length mean = b -> List.length var = b ->
  valid_setting rs -> valid_setting rm -> Forall (content_ok b) cs -> cs <> [] ->
  exists h1 o0 h2 r2 h3 r3 o3,
    fresh_state h time x w ll inds mean var = (h1, o0) /\ init_result h1 o0 rs rm = Ok (h2, r2) /\
    steps h2 r2 o0 cs = Ok (h3, r3, o3) /\
    reachable b h3 r o /\ reachable b h3 r3 o3 /\ separate h3 r o r3 o3 /\ same_reports h h3 r o /\
    latest_recorded h3 r3 o3 /\ s_ll (obj h3 o3) <> r_ll r3 /\ dq_max (r_states r3) = window rs.
Proof.
  intros b h r o time x w ll inds mean var rs rm cs HR L1 L2 L3 L4 L5 L6 Hs Hm Hc Hne.
  pose proof (reachable_inv _ _ _ _ HR) as HI.
  destruct (new_run b h r o time x w ll inds mean var rs rm cs HI L1 L2 L3 L4 L5 L6 Hs Hm Hc)
    as (h1 & o0 & h2 & r2 & h3 & r3 & o3 & E1 & E2 & E3 & I3 & HR3 & UT & Sep & HL & Mx & _).
  exists h1, o0, h2, r2, h3, r3, o3. do 3 (split; [assumption|]).
  split; [eapply reach_elsewhere; [exact HR|exact UT]|]. split; [exact HR3|]. split; [exact Sep|].
  split.
  - destruct UT as [U1 U2 U3 U4]. destruct (iv_two _ _ _ _ HI) as (dm & dv & W).
    assert (Hr : forall a, In a (recorded r) -> get h3 a = get h a) by (intros a Ha; apply U3; apply in_footprint; now left).
    rewrite (with_recorded _ _ _ W) in Hr.
    assert (Hv : forall k, In k (objects r o) -> view h3 k = view h k).
    { intros k Hk. unfold view. rewrite U4 by exact Hk.
      assert (Hf : forall a, In a (fields (obj h k)) -> get h3 a = get h a) by (intros a Ha; apply U3, in_footprint; right; now exists k).
      f_equal; apply Hf; cbn; tauto. }
    split; [apply Hr; now left|]. split; [|split; [|apply Hv; now left]].
    + intros name [<-|[<-|[]]].
      * rewrite !(rep_moment_means _ _ _ _ W). apply map_ext_in. intros a Ha. apply Hr. right. apply in_or_app. now left.
      * rewrite !(rep_moment_vars _ _ _ _ W). apply map_ext_in. intros a Ha. apply Hr. right. apply in_or_app. now right.
    + apply map_ext_in. intros k Hk. apply Hv. now right.
  - destruct (HL Hne) as [A B]. split; [now apply (recorded_coherent b)|]. split; [exact B|exact Mx].
Qed.
Print Assumptions C34_new_run_separate.

(** After any series of observations the latest state does not share the running total. *)
Theorem C34_started : forall b h r o cs h' r' o', reachable b h r o -> Forall (content_ok b) cs -> cs <> [] ->
  steps h r o cs = Ok (h', r', o') -> s_ll (obj h' o') <> r_ll r'.
Proof.
  intros b h r o cs h' r' o' HR Hc Hne E. pose proof (reachable_inv _ _ _ _ HR) as HI.
  refine (proj2 (proj2 (steps_above b 0 0 cs h r o h' r' o' HI Hc ltac:(lia) ltac:(lia) _ E) Hne)).
  split; intros; lia.
Qed.
Print Assumptions C34_started.

(** With two states recorded and an ancestor tensor passed on unchanged (SISR without resampling), exchanging with a
    run that did resample overwrites the older state's ancestors with the newer state's. *)
Definition two_run (h : heap) (inds0 : tensor) (src : source) : res (heap * result * addr) :=
  let (h, o) := fresh_state h 0 (col2 0 0) (col2 0 0) (num2 0 0) inds0 (col2 0 0) (col2 0 0) in
  let! (h, r) := init_result h o (MLInt 2) (MLBool false) in
  steps h r o [Content 1 (col2 0 0) (New (col2 0 0)) (num2 0 0) src (col2 0 0) (col2 0 0)].

Lemma two_reachable h0 i0 src h r o : List.length i0 = 2 -> source_ok 2 src -> two_run h0 i0 src = Ok (h, r, o) -> reachable 2 h r o.
Proof.
  intros L1 L2. unfold two_run. destruct (fresh_state _ _ _ _ _ _ _ _) as [h1 o1] eqn:Ef.
  destruct (init_result h1 o1 _ _) as [[h2 r2]|] eqn:Ei; [|discriminate]. cbn [bind].
  intros E. eapply reachable_steps; [|  |exact E].
  - eapply reach_init; [..|exact Ef|exact Ei]; try reflexivity. exact L1.
  - constructor; [|constructor]. do 3 (split; [reflexivity|]). split; [exact L2|]. split; reflexivity.
Qed.

Theorem C34_exchange_refuted : exists h r o r' o' h' k k',
  reachable 2 h r o /\ reachable 2 h r' o' /\ separate h r o r' o' /\
  (forall name, In name moment_names -> List.length (rep_moment h r name) = List.length (rep_moment h r' name)) /\
  exchange h r r' [true; false] = Ok h' /\
  nth_error (dq_items (r_states r)) 0 = Some k /\ nth_error (dq_items (r_states r')) 0 = Some k' /\
  v_inds (view h k') = idx2 5 5 /\ v_inds (view h' k) = idx2 7 0.
Proof.
  destruct (two_run (Heap [] []) (idx2 0 0) Shared) as [[[h1 r] o]|] eqn:E1; [|discriminate E1].
  pose proof (two_reachable (Heap [] []) (idx2 0 0) Shared h1 r o eq_refl I E1) as HR1.
  destruct (new_run 2 h1 r o 0 (col2 0 0) (col2 0 0) (num2 0 0) (idx2 5 5) (col2 0 0) (col2 0 0) (MLInt 2) (MLBool false)
     [Content 1 (col2 0 0) (New (col2 0 0)) (num2 0 0) (New (idx2 7 7)) (col2 0 0) (col2 0 0)])
    as (h2 & o0 & h3 & r2 & h & r' & o' & F1 & F2 & F3 & _ & HR' & UT & Sep & _); try reflexivity.
  { now apply reachable_inv. }
  { cbn. lia. }
  { constructor; [|constructor]. do 5 (split; [reflexivity|]). reflexivity. }
  exists h, r, o, r', o'.
  assert (Er : two_run h1 (idx2 5 5) (New (idx2 7 7)) = Ok (h, r', o')).
  { unfold two_run. rewrite F1, F2. cbn [bind]. exact F3. }
  clear F1 F2 F3.
  assert (HR : reachable 2 h r o) by (eapply reach_elsewhere; [exact HR1|exact UT]). clear HR1 UT.
  cut ((forall name, In name moment_names -> List.length (rep_moment h r name) = List.length (rep_moment h r' name)) /\
    exists h' k k', exchange h r r' [true; false] = Ok h' /\
    nth_error (dq_items (r_states r)) 0 = Some k /\ nth_error (dq_items (r_states r')) 0 = Some k' /\
    v_inds (view h k') = idx2 5 5 /\ v_inds (view h' k) = idx2 7 0).
  { intros (Q & h' & k & k' & Q'). exists h', k, k'. tauto. }
  clear HR HR' Sep. cbv -[Rplus IZR] in E1. injection E1 as <- <- <-. cbv -[Rplus IZR] in Er. injection Er as <- <- <-.
  split.
  - intros name [<-|[<-|[]]]; reflexivity.
  - eexists. eexists. eexists. split; [cbv -[Rplus IZR]; reflexivity|]. cbv -[Rplus IZR].
    split; [reflexivity|]. split; [reflexivity|]. split; reflexivity.
Qed.
Print Assumptions C34_exchange_refuted.

(** The hypotheses of [C34_latest_state_only] are met by a filter's run and a second run beside it. *)
Example C34_nonvacuous : exists h r o r' o',
  reachable 2 h r o /\ reachable 2 h r' o' /\ separate h r o r' o' /\
  dq_max (r_states r) = Some 1 /\ dq_max (r_states r') = Some 1 /\
  s_ll (obj h o) <> r_ll r /\ latest_recorded h r' o' /\
  (forall name, In name moment_names -> List.length (rep_moment h r name) = List.length (rep_moment h r' name)).
Proof.
  destruct (swap_reports 3 4 1 2) as (h0 & r & o & h' & E & E' & R1 & _).
  pose proof (swap_reachable _ _ _ _ h0 r o E) as HR. pose proof (reachable_inv _ _ _ _ HR) as HI.
  assert (Q : dq_max (r_states r) = Some 1 /\ s_ll (obj h0 o) <> r_ll r /\
    (forall name, In name moment_names -> List.length (rep_moment h0 r name) = 2)).
  { clear -E. cbv -[Rplus IZR] in E. injection E as <- <- <-. split; [reflexivity|]. split; [discriminate|].
    intros name [<-|[<-|[]]]; reflexivity. }
  destruct Q as (Q1 & Q2 & Q3).
  destruct (C31_total_is_sum 2 h0 0 (col2 0 0) (col2 0 0) (idx2 0 0) (col2 0 0) (col2 0 0) (MLBool false) (MLBool true) [sample_content 1 2])
    as (i1 & p0 & i2 & s2 & i3 & s3 & p3 & G1 & G2 & G3 & _ & _ & M1 & M2); try reflexivity; try exact I.
  { constructor; [|constructor]. do 5 (split; [reflexivity || exact I|]). reflexivity. }
  { constructor; [|constructor]. repeat constructor; eauto. }
  destruct (C34_new_run_separate 2 h0 r o 0 (col2 0 0) (col2 0 0) (repeat (Num (Fin 0)) 2) (idx2 0 0) (col2 0 0) (col2 0 0) (MLBool false) (MLBool true) [sample_content 1 2] HR)
    as (h1 & o0 & h2 & r2 & h3 & r3 & o3 & F1 & F2 & F3 & H1 & H2 & H3 & H4 & H5 & H6 & H7); try reflexivity; try exact I; try discriminate.
  { constructor; [|constructor]. do 5 (split; [reflexivity || exact I|]). reflexivity. }
  rewrite G1 in F1. injection F1 as <- <-. rewrite G2 in F2. injection F2 as <- <-. rewrite G3 in F3. injection F3 as <- <- <-.
  exists i3, r, o, s3, p3. do 3 (split; [assumption|]). split; [exact Q1|]. split; [exact H7|].
  destruct H4 as (_ & H4 & _ & _).
  assert (Ho : obj i3 o = obj h0 o).
  { destruct (fresh_state_spec 2 h0 0 (col2 0 0) (col2 0 0) (repeat (Num (Fin 0)) 2) (idx2 0 0) (col2 0 0) (col2 0 0) i1 p0 eq_refl eq_refl eq_refl eq_refl eq_refl eq_refl G1) as (_ & A1 & A2 & A3 & A4 & _ & A5 & _).
    destruct (init_spec 2 i1 p0 (MLBool false) (MLBool true) ltac:(lia) A4 A5 I I) as (j2 & t2 & dm & ds & Ei & Iv & _ & _ & _ & S2 & O2 & _).
    rewrite G2 in Ei. injection Ei as <- <-.
    destruct (steps_spec 2 [sample_content 1 2] i2 s2 p0 Iv) as (j3 & t3 & q3 & E3 & _ & _ & _ & _ & _ & _ & K3 & _).
    { constructor; [|constructor]. do 5 (split; [reflexivity || exact I|]). reflexivity. }
    rewrite G3 in E3. injection E3 as <- <- <-.
    pose proof (iv_objs _ _ _ _ HI o (or_introl eq_refl)) as [Lo _].
    rewrite K3; [|unfold osize in *; rewrite O2; lia]. unfold obj. rewrite O2. now apply A3. }
  split; [now rewrite Ho|]. split; [exact H5|].
  intros name Hn. rewrite H4 by exact Hn. rewrite Q3 by exact Hn. destruct Hn as [<-|[<-|[]]]; [rewrite M1|rewrite M2]; reflexivity.
Qed.
