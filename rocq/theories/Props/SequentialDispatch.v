(** Which algorithm handles an observation (C53), what callbacks get (C57), which parameters the filters use (C81, C82), when
    FixedWidthNESS rejuvenates (C83). *)
From Coq Require Import Reals List Bool Arith Lia Lra.
From Verif.Model Require Import Base Xf Weights Pmmh Sequential.
From Verif.Spec Require Import PmmhSpec SequentialSpec.
From Verif.Proofs Require Import WeightsProofs SequentialProofs SequentialToy.
From Verif.Props Require Import WeightsProps PmmhProps SequentialProps SequentialMoves SequentialWeights.
Import ListNotations.
Local Open Scope nat_scope.

Section Dispatch.
  Context {T F Y K : Type} (E : env T F Y K) (OK : env_ok E).
  Notation B := (e_B E).

  (** What is known of an algorithm and a state reached by [fit]. *)
  Lemma reached c cbs a0 drawn placed xs a s calls : compatible c -> List.length drawn = B -> List.length placed = B -> a_switched a0 = false ->
    fit_alg E c cbs a0 drawn placed xs = (a, Ok (s, calls)) ->
    world_ok E (a_world a) /\ state_ok E s /\ s_iter s = List.length xs /\ switch_ok c a (s_iter s) /\ data_ok c s /\ ess_ok (s_ess s) /\
    (drawn = placed -> g_model (a_world a) = g_ctx (a_world a)) /\ map fst calls = flat_map (fun y => map (fun cb => (cb_id cb, y)) cbs) xs.
  Proof.
    intros Co L1 L2 Sw. unfold fit_alg. pose proof (C52_ess_initial E OK c a0 drawn placed) as Ei. destruct (initial_ok E OK c a0 drawn placed L1 L2) as [e Eq]. rewrite Eq in *. cbn [snd] in Ei. specialize (Ei _ L1 L2 eq_refl).
    set (b0 := Alg _ _ _ _) in *. set (s0 := St _ _ _ _ _) in *. intros Er. pose proof (run_frame E OK c cbs xs b0 s0) as H.
    assert (W0 : world_ok E (a_world b0)) by (split; assumption). assert (S0 : state_ok E s0) by (split; [apply repeat_length|now apply init_len]).
    assert (O0 : switch_ok c b0 (s_iter s0)) by (destruct c; cbn; [exact I|rewrite Sw; discriminate]).
    assert (D0 : data_ok c s0) by (split; [exact Co|]; destruct c as [[| |]|[| |] ? ?]; cbn; auto; discriminate).
    specialize (H W0 S0 O0 D0). rewrite Er in H. destruct H as (A1 & A2 & A3 & (l & A4 & A5 & A5') & A6 & A7 & A8 & A9 & A10).
    split; [exact A1|]. split; [exact A2|]. split; [exact A3|]. split; [exact A7|]. split; [exact A8|]. split.
    - rewrite A4. destruct Ei as [N Fo]. split; [destruct (s_ess s0); [now contradiction N|discriminate]|]. apply Forall_app. auto.
    - split; [|exact A10]. intros ->. now apply A9.
  Qed.

  (** ** C53 *)
  (** Of the data given to [fit], the first [switch + 1] observations go to the first algorithm and the others to the second. *)
  Theorem C53_partial : forall b1 b2 switch cbs a0 drawn placed xs a s calls y, compatible (Combined b1 b2 switch) -> List.length drawn = B -> List.length placed = B -> a_switched a0 = false ->
    fit_alg E (Combined b1 b2 switch) cbs a0 drawn placed xs = (a, Ok (s, calls)) ->
    (List.length xs < switch + 1 -> snd (step_ E (Combined b1 b2 switch) a y s) = snd (base_step E b1 (a_first a) (a_world a) y s) /\ a_second (fst (step_ E (Combined b1 b2 switch) a y s)) = a_second a) /\
    (switch + 1 <= List.length xs -> snd (step_ E (Combined b1 b2 switch) a y s) = snd (base_step E b2 (a_second a) (a_world a) y s) /\ a_first (fst (step_ E (Combined b1 b2 switch) a y s)) = a_first a).
  Proof.
    intros b1 b2 sw cbs a0 drawn placed xs a s calls y Co L1 L2 Sw Ef. destruct (reached _ _ _ _ _ _ _ _ _ Co L1 L2 Sw Ef) as (_ & _ & It & So & _). cbn in So. rewrite It in So.
    unfold step_. rewrite It. split; intros H.
    - replace (List.length xs <=? sw) with true by (symmetry; apply Nat.leb_le; lia). destruct (a_switched a); [specialize (So eq_refl); lia|]. cbn [negb andb]. destruct (base_step E b1 _ _ _ _) as [[i g] r]. split; reflexivity.
    - replace (List.length xs <=? sw) with false by (symmetry; apply Nat.leb_gt; lia). rewrite andb_false_r. destruct (base_step E b2 _ _ _ _) as [[i g] r]. split; reflexivity.
  Qed.
  (** An algorithm that has switched stays so: fitted again, it gives all observations to the second algorithm. *)
  Lemma switched_run b1 b2 sw cbs : match b2 with SMC2 _ => False | _ => True end -> forall ys a s a' s' calls, world_ok E (a_world a) -> state_ok E s -> a_switched a = true ->
    run E (Combined b1 b2 sw) cbs a ys s = (a', Ok (s', calls)) -> s_data s' = s_data s /\ a_first a' = a_first a /\ a_switched a' = true.
  Proof.
    intros N2. induction ys as [|y ys IH]; intros a s a' s' calls WG WS Sw Er; cbn [run] in Er; [injection Er as -> -> _; auto|].
    pose proof (step_frame E OK (Combined b1 b2 sw) cbs a y s WG WS) as Fr. destruct (step E (Combined b1 b2 sw) cbs a y s) as [a1 r1] eqn:Es. destruct r1 as [[s1 c1]|]; [|discriminate].
    destruct Fr as (A1 & A2 & _ & _ & A5 & _ & _ & A8). cbn [active uses_first] in *. rewrite Sw in *. cbn [negb andb] in *.
    destruct (run E (Combined b1 b2 sw) cbs a1 ys s1) as [a2 r2] eqn:Er1. destruct r2 as [[s2 c2]|]; [|discriminate]. cbn in Er. injection Er as -> -> _.
    destruct (IH _ _ _ _ _ A1 A2 A8 Er1) as (H1 & H2 & H3). rewrite H1, A5, H2. split; [destruct b2; [reflexivity|reflexivity|contradiction]|]. split; [|exact H3].
    unfold step in Es. cbn [step_] in Es. rewrite Sw in Es. cbn [negb andb] in Es. destruct (base_step E b2 _ _ _ _) as [[i g] r]. destruct r as [x|]; [|discriminate].
    destruct (run_callbacks E cbs y (seen_by_callbacks x)). injection Es as <- _ _. reflexivity.
  Qed.
  Theorem C53_second_fit_refuted : forall c1 b2 switch cbs a0 drawn placed ys a s calls, match b2 with SMC2 _ => False | _ => True end -> List.length drawn = B -> List.length placed = B -> a_switched a0 = true ->
    fit_alg E (Combined (SMC2 c1) b2 switch) cbs a0 drawn placed ys = (a, Ok (s, calls)) -> s_data s = Some [] /\ a_first a = a_first a0 /\ a_switched a = true.
  Proof.
    intros c1 b2 sw cbs a0 drawn placed ys a s calls N2 L1 L2 Sw. unfold fit_alg. destruct (initial_ok E OK (Combined (SMC2 c1) b2 sw) a0 drawn placed L1 L2) as [e ->]. intros Er.
    assert (W0 : world_ok E (World placed drawn (g_np (a_world a0)) (S (g_rnd (a_world a0))) (g_updates (a_world a0)))) by (split; assumption).
    refine (switched_run _ _ _ _ N2 _ _ _ _ _ _ _ _ _ Er); [exact W0|split; [apply repeat_length|now apply init_len]|exact Sw].
  Qed.

  (** ** C57 *)
  Theorem C57_register : forall l, fold_left register_callback l [] = first_registered [] l /\ NoDup (map cb_id (first_registered [] l)).
  Proof.
    intros l.
    assert (G : forall l acc, fold_left register_callback l acc = acc ++ first_registered (map cb_id acc) l).
    { clear. induction l as [|[c|] l IH]; intros acc; cbn [fold_left first_registered register_callback]; [now rewrite app_nil_r| |apply IH].
      destruct (in_dec Nat.eq_dec (cb_id c) (map cb_id acc)) as [i|n].
      - replace (existsb _ acc) with true; [apply IH|]. symmetry. apply existsb_exists. apply in_map_iff in i as (d & Ed & Id). exists d. split; [exact Id|]. now apply Nat.eqb_eq.
      - replace (existsb (fun d => cb_id d =? cb_id c) acc) with false.
        + rewrite IH, <- app_assoc. cbn [app]. do 2 f_equal. clear. assert (Se : forall s1 s2 l, (forall x, In x s1 <-> In x s2) -> first_registered s1 l = first_registered s2 l).
          { clear. intros s1 s2 l. revert s1 s2. induction l as [|[c|] l IH]; intros s1 s2 H; cbn; auto. destruct (in_dec Nat.eq_dec (cb_id c) s1) as [i|n], (in_dec Nat.eq_dec (cb_id c) s2) as [i'|n']; auto.
            - exfalso. apply n', H, i.
            - exfalso. apply n, H, i'.
            - f_equal. apply IH. intros x. cbn. rewrite H. reflexivity. }
          apply Se. intros x. rewrite map_app, in_app_iff. cbn. tauto.
        + symmetry. apply not_true_is_false. intros H. apply existsb_exists in H as (d & Id & Ed). apply Nat.eqb_eq in Ed. apply n, in_map_iff. exists d. auto. }
    split; [apply G|]. assert (N : forall l seen, NoDup (map cb_id (first_registered seen l)) /\ forall x, In x (map cb_id (first_registered seen l)) -> ~ In x seen).
    { clear. induction l as [|[c|] l IH]; intros seen; cbn; [split; [constructor|tauto]| |apply IH]. destruct (in_dec Nat.eq_dec (cb_id c) seen) as [i|n]; [apply IH|]. destruct (IH (cb_id c :: seen)) as [N1 N2]. cbn [map]. split.
      - constructor; [|exact N1]. intros H. apply (N2 _ H). now left.
      - intros x [<-|H]; [exact n|]. intros Hs. apply (N2 _ H). now right. }
    apply N.
  Qed.
  (** Every callback once for every observation, in order. *)
  Theorem C57_calls : forall c cbs a0 drawn placed ys a s calls, compatible c -> List.length drawn = B -> List.length placed = B -> a_switched a0 = false ->
    fit_alg E c cbs a0 drawn placed ys = (a, Ok (s, calls)) -> map fst calls = flat_map (fun y => map (fun cb => (cb_id cb, y)) cbs) ys.
  Proof. intros c cbs a0 drawn placed ys a s calls Co L1 L2 Sw Ef. apply (reached _ _ _ _ _ _ _ _ _ Co L1 L2 Sw Ef). Qed.
  (** With the new state, except that the iteration has not been counted yet, if no state particles were added.  (Callbacks
      that ask for the normalised weights change the weights the next ones get: C52.) *)
  Theorem C57_state_partial : forall c cbs a y s a' s' calls, world_ok E (a_world a) -> state_ok E s -> step E c cbs a y s = (a', Ok (s', calls)) ->
    existsb cb_reads cbs = false -> 0 < g_np (a_world a) -> g_np (a_world a') = g_np (a_world a) ->
    exists t, calls = map (fun cb => (cb_id cb, y, t)) cbs /\ s_w s' = s_w t /\ s_fs s' = s_fs t /\ s_ess s' = s_ess t /\ s_data s' = s_data t /\ s_iter s' = s_iter t + 1.
  Proof.
    intros c cbs a y s a' s' calls WG WS. unfold step. rewrite (step_eq E c). pose proof (base_step_np E OK (active c a s) (instance c a s) (a_world a) y s WG WS) as Hn.
    pose proof (base_step_frame E OK (active c a s) (instance c a s) (a_world a) y s WG WS) as Fr. destruct (base_step E _ _ _ _ _) as [[i g] r]. destruct r as [x|e]; [|discriminate].
    destruct Fr as (_ & _ & Fs & _). pose proof (callbacks_frame E OK cbs y (seen_by_callbacks x) (proj1 Fs)) as C. destruct (run_callbacks E cbs y (seen_by_callbacks x)) as [calls0 seen]. intros Eq. injection Eq as <- <- <-. intros Hr Pn Np.
    assert (Wd : a_world (if uses_first c a s then Alg i (a_second a) (a_switched a) g else Alg (a_first a) i true g) = g) by (destruct (uses_first c a s); reflexivity). rewrite Wd in Np.
    destruct x as [s1|old new]; [|destruct Hn as (_ & _ & Hn); lia]. destruct C as (_ & _ & _ & _ & _ & _ & C). destruct (C Hr) as [-> ->]. exists s1. cbn. repeat split; auto. lia.
  Qed.

  (** ** C81 *)
  Lemma alone_filtered data : forall rnd np b t d0 f, filtered E t d0 f -> filtered E t (d0 ++ data) (alone_on E rnd np b t data f).
  Proof.
    induction data as [|y data IH]; intros rnd np b t d0 f H; cbn [alone_on]; [now rewrite app_nil_r|]. replace (d0 ++ y :: data) with ((d0 ++ [y]) ++ data) by now rewrite <- app_assoc.
    apply IH. destruct f as [f l]. cbn [fst snd]. now apply filtered_next.
  Qed.
  Lemma append_slot g (fs : list (F * xf)) y b t f : world_ok E g -> List.length fs = B -> g_model g = g_ctx g -> slot (g_ctx g) b = Some t ->
    slot (append_result fs (corrections E (g_rnd g) (g_np g) (g_model g) (g_ctx g) y fs)) b = Some f ->
    exists f0 l0, slot fs b = Some (f0, l0) /\ f = (fst (e_step E (g_rnd g) (g_np g) b t t y f0), xadd l0 (snd (e_step E (g_rnd g) (g_np g) b t t y f0))).
  Proof.
    intros [G1 G2] Lf M Et Ef. unfold slot in *. assert (Hb : b < B) by (rewrite <- G1; apply nth_error_Some; rewrite Et; discriminate). destruct (nth_some fs b ltac:(lia)) as [[f0 l0] E0]. exists f0, l0. split; [exact E0|].
    unfold append_result in Ef. rewrite (zip_nth _ _ _ b _ _ E0 (corrections_nth E (g_rnd g) (g_np g) (g_model g) (g_ctx g) y fs b t t (f0, l0) ltac:(congruence) ltac:(congruence) ltac:(now rewrite M) Et E0)) in Ef. injection Ef as <-. reflexivity.
  Qed.
  Lemma filtered_one t y p : filtered E t [y] p -> exists rnd np b rnd' np' b',
    p = (fst (e_step E rnd np b t t y (e_init E rnd' np' b' t t)), xadd (Fin 0) (snd (e_step E rnd np b t t y (e_init E rnd' np' b' t t)))).
  Proof.
    intros H. inversion H as [|rnd np b data y' f l Hf Ed Ep]. destruct data as [|d data]; [|destruct data; discriminate]. cbn in Ed. injection Ed as ->.
    inversion Hf as [rnd' np' b' Ed' Ep'|? ? ? data ? ? ? ? Ed]; [|destruct data; discriminate]. exists rnd, np, b, rnd', np', b'. reflexivity.
  Qed.
  (** The invariant of SMC2. *)
  Definition matched (g : @world T) (data : list Y) (fs : list (F * xf)) : Prop := forall b t f, slot (g_ctx g) b = Some t -> slot fs b = Some f -> filtered E t data f.
  Lemma smc2_matched c i g y s data : world_ok E g -> state_ok E s -> g_model g = g_ctx g -> s_data s = Some data -> matched g data (s_fs s) ->
    let '(_, g', r) := base_step E (SMC2 c) i g y s in forall x, r = Ok x -> matched g' (data ++ [y]) (s_fs (result_of x)).
  Proof.
    intros WG WS M Sd Ma. cbn [base_step]. rewrite Sd. set (s0 := St (s_w s) (s_fs s) (s_ess s) (Some (data ++ [y])) (s_iter s)). assert (W0 : state_ok E s0) by exact WS.
    destruct (absorb_ok E OK g y s0 WG W0) as (Lc & e & -> & _). set (s1 := St _ _ _ _ _). assert (W1 : state_ok E s1) by exact (absorb_state_ok E s0 e _ Lc W0).
    assert (Ma1 : matched (tick 1 g) (data ++ [y]) (s_fs s1)).
    { intros b t f Et Ef. cbn [s1 s_fs s0] in Ef. cbn [tick g_ctx] in Et. destruct (append_slot g (s_fs s) y b t f WG (proj2 WS) M Et Ef) as (f0 & l0 & E0 & ->). apply filtered_next. exact (Ma b t (f0, l0) Et E0). }
    destruct (_ || _); [|intros x Ex; injection Ex as <-; exact Ma1].
    pose proof (C56_smc2 E OK c (i_increases i) (tick 1 g) s1 (data ++ [y]) WG W1 eq_refl) as H. destruct (pmmh_update E c (i_increases i) (tick 1 g) s1) as [[n g2] r2]. intros x Ex. subst r2.
    assert (Al : forall rnd np b t, filtered E t (data ++ [y]) (alone E rnd np b t (data ++ [y]))).
    { intros rnd np b t. unfold alone. change (data ++ [y]) with ([] ++ (data ++ [y])) at 1. apply alone_filtered. apply filtered_start. }
    destruct x as [s'|old new]; cbn [result_of].
    - destruct H as (idx & p & w' & k & _ & _ & _ & _ & _ & _ & _ & H). intros b t f Et Ef. destruct (H b t f Et Ef) as [(j & _ & J2 & J3)|(rnd & _ & ->)]; [exact (Ma1 j t f J2 J3)|apply Al].
    - destruct H as (rnd & _ & _ & H). intros b t f Et Ef. rewrite (H b t f Et Ef). apply Al.
  Qed.
  Lemma smc2_run c cbs : forall ys a s a' s' calls data, world_ok E (a_world a) -> state_ok E s -> g_model (a_world a) = g_ctx (a_world a) -> s_data s = Some data -> matched (a_world a) data (s_fs s) ->
    run E (Plain (SMC2 c)) cbs a ys s = (a', Ok (s', calls)) -> matched (a_world a') (data ++ ys) (s_fs s').
  Proof.
    induction ys as [|y ys IH]; intros a s a' s' calls data WG WS M Sd Ma Er; cbn [run] in Er; [injection Er as <- <- _; now rewrite app_nil_r|].
    pose proof (step_frame E OK (Plain (SMC2 c)) cbs a y s WG WS) as Fr. destruct (step E (Plain (SMC2 c)) cbs a y s) as [a1 r1] eqn:Es. destruct r1 as [[s1 c1]|]; [|discriminate].
    destruct Fr as (A1 & A2 & _ & _ & A5 & A6 & _ & _). cbn [active] in A5. rewrite Sd in A5. cbn in A5.
    destruct (run E (Plain (SMC2 c)) cbs a1 ys s1) as [a2 r2] eqn:Er1. destruct r2 as [[s2 c2]|]; [|discriminate]. cbn in Er. injection Er as -> -> _.
    replace (data ++ y :: ys) with ((data ++ [y]) ++ ys) by now rewrite <- app_assoc. refine (IH _ _ _ _ _ _ A1 A2 (A6 M) A5 _ Er1).
    unfold step in Es. cbn [step_] in Es. pose proof (smc2_matched c (a_first a) (a_world a) y s data WG WS M Sd Ma) as H. pose proof (base_step_frame E OK (SMC2 c) (a_first a) (a_world a) y s WG WS) as Hf.
    destruct (base_step E (SMC2 c) _ _ _ _) as [[i g] r]. destruct r as [x|]; [|discriminate]. specialize (H x eq_refl). destruct Hf as (_ & _ & Fs & _).
    pose proof (callbacks_frame E OK cbs y (seen_by_callbacks x) (proj1 Fs)) as C. destruct (run_callbacks E cbs y (seen_by_callbacks x)) as [cl seen]. injection Es as <- <- _. cbn [a_world].
    destruct x as [sx|old new]; cbn [bump_iteration s_fs result_of seen_by_callbacks] in *; [|exact H]. destruct C as (_ & -> & _). exact H.
  Qed.
  (** C81.  In SMC2 every parameter particle is accompanied by a genuine run of the filter with these parameters on all the
      observations so far, whatever was resampled, proposed, accepted and added in between. *)
  Theorem C81_smc2_partial : forall c cbs a0 drawn ys a s calls, List.length drawn = B ->
    fit_alg E (Plain (SMC2 c)) cbs a0 drawn drawn ys = (a, Ok (s, calls)) ->
    forall b t f, slot (g_ctx (a_world a)) b = Some t -> slot (s_fs s) b = Some f -> filtered E t ys f.
  Proof.
    intros c cbs a0 drawn ys a s calls L. unfold fit_alg. destruct (initial_ok E OK (Plain (SMC2 c)) a0 drawn drawn L L) as [e ->]. intros Er.
    refine (smc2_run c cbs ys _ _ _ _ _ [] _ _ _ _ _ Er); [split; exact L|split; [apply repeat_length|now apply init_len]|reflexivity|reflexivity|].
    intros b t f Et Ef. cbn [g_ctx a_world s_fs] in *. unfold slot in *. rewrite (init_nth E _ _ drawn drawn b t t eq_refl Et Et) in Ef. injection Ef as <-. apply filtered_start.
  Qed.

  (** ** C82: between rejuvenations each filter is run by itself with the parameters of its slot. *)
  Lemma step_alone c cbs a y s a' s' calls : world_ok E (a_world a) -> state_ok E s -> step E c cbs a y s = (a', Ok (s', calls)) ->
    g_updates (a_world a) <= g_updates (a_world a') /\ (g_updates (a_world a') = g_updates (a_world a) -> a_world a' = tick 1 (a_world a) /\
    s_fs s' = append_result (s_fs s) (corrections E (g_rnd (a_world a)) (g_np (a_world a)) (g_model (a_world a)) (g_ctx (a_world a)) y (s_fs s))).
  Proof.
    intros WG WS. unfold step. rewrite (step_eq E c). pose proof (base_step_quiet E OK (active c a s) (instance c a s) (a_world a) y s WG WS) as H.
    pose proof (base_step_frame E OK (active c a s) (instance c a s) (a_world a) y s WG WS) as Fr.
    destruct (base_step E _ _ _ _ _) as [[i g] r]. destruct H as [H1 H2]. destruct r as [x|e]; [|discriminate].
    destruct Fr as (_ & _ & Fs & _). pose proof (callbacks_frame E OK cbs y (seen_by_callbacks x) (proj1 Fs)) as C. destruct (run_callbacks E cbs y (seen_by_callbacks x)) as [cl seen]. intros Eq. injection Eq as <- <- <-.
    assert (Wd : a_world (if uses_first c a s then Alg i (a_second a) (a_switched a) g else Alg (a_first a) i true g) = g) by (destruct (uses_first c a s); reflexivity). rewrite Wd.
    split; [exact H1|]. intros Q. destruct (H2 Q x eq_refl) as (s1 & -> & N1 & N2 & _ & Ef). split; [exact N1|]. destruct C as (_ & C & _). cbn [bump_iteration s_fs]. rewrite C. exact Ef.
  Qed.
  Theorem C82_alone : forall c cbs ys a s a' s' calls, world_ok E (a_world a) -> state_ok E s -> g_model (a_world a) = g_ctx (a_world a) ->
    run E c cbs a ys s = (a', Ok (s', calls)) -> g_updates (a_world a') = g_updates (a_world a) ->
    g_ctx (a_world a') = g_ctx (a_world a) /\
    forall b t f, slot (g_ctx (a_world a)) b = Some t -> slot (s_fs s) b = Some f -> slot (s_fs s') b = Some (alone_on E (g_rnd (a_world a)) (g_np (a_world a)) b t ys f).
  Proof.
    intros c cbs ys a s a' s' calls WG WS M Er Q.
    assert (G : forall ys a s calls, world_ok E (a_world a) -> state_ok E s -> g_model (a_world a) = g_ctx (a_world a) -> run E c cbs a ys s = (a', Ok (s', calls)) ->
      g_updates (a_world a) <= g_updates (a_world a') /\ (g_updates (a_world a') = g_updates (a_world a) -> g_ctx (a_world a') = g_ctx (a_world a) /\
      forall b t f, slot (g_ctx (a_world a)) b = Some t -> slot (s_fs s) b = Some f -> slot (s_fs s') b = Some (alone_on E (g_rnd (a_world a)) (g_np (a_world a)) b t ys f))).
    { clear - OK. induction ys as [|y ys IH]; intros a s calls WG WS M Er; cbn [run] in Er; [injection Er as -> -> _; split; [lia|]; intros _; split; [reflexivity|]; intros b t f _ H; exact H|].
      pose proof (step_frame E OK c cbs a y s WG WS) as Fr. destruct (step E c cbs a y s) as [a1 r1] eqn:Es. destruct r1 as [[s1 c1]|]; [|discriminate].
      destruct Fr as (A1 & A2 & _ & _ & _ & A6 & _ & _). destruct (step_alone c cbs a y s a1 s1 c1 WG WS Es) as [Q1 Q2].
      destruct (run E c cbs a1 ys s1) as [a2 r2] eqn:Er1. destruct r2 as [[s2 c2]|]; [|discriminate]. cbn in Er. injection Er as -> -> _.
      destruct (IH a1 s1 c2 A1 A2 (A6 M) Er1) as [R1 R2]. split; [lia|]. intros Q. destruct (Q2 ltac:(lia)) as [Q3 Q4]. destruct (R2 ltac:(lia)) as [R3 R4]. rewrite Q3 in *. cbn [tick g_ctx g_rnd g_np] in *. split; [exact R3|].
      intros b t f Et Ef. assert (Hb : b < B) by (destruct WS as [_ <-]; apply nth_error_Some; unfold slot in Ef; rewrite Ef; discriminate). destruct (nth_some (s_fs s1) b) as [f1 E1]; [destruct A2 as [_ ->]; exact Hb|].
      rewrite (R4 b t f1 Et E1). pose proof E1 as E1'. rewrite Q4 in E1'. destruct (append_slot (a_world a) (s_fs s) y b t f1 WG (proj2 WS) M Et E1') as (f0 & l0 & E0 & ->). unfold slot in *. rewrite Ef in E0. injection E0 as ->. cbn [alone_on fst snd]. now rewrite Nat.add_1_r. }
    destruct (G ys a s calls WG WS M Er) as [_ H]. exact (H Q).
  Qed.

  (** ** C83 *)
  Lemma fixed_blocks bl d cbs : forall ys a s a' s' calls, world_ok E (a_world a) -> state_ok E s -> run E (Plain (FixedWidthNESS bl d)) cbs a ys s = (a', Ok (s', calls)) ->
    i_blocks (a_first a') = i_blocks (a_first a) + List.length ys.
  Proof.
    induction ys as [|y ys IH]; intros a s a' s' calls WG WS Er; cbn [run] in Er; [injection Er as -> _ _; cbn; lia|].
    pose proof (step_frame E OK (Plain (FixedWidthNESS bl d)) cbs a y s WG WS) as Fr. destruct (step E (Plain (FixedWidthNESS bl d)) cbs a y s) as [a1 r1] eqn:Es. destruct r1 as [[s1 c1]|]; [|discriminate].
    destruct Fr as (A1 & A2 & _). destruct (run E (Plain (FixedWidthNESS bl d)) cbs a1 ys s1) as [a2 r2] eqn:Er1. destruct r2 as [[s2 c2]|]; [|discriminate]. cbn in Er. injection Er as -> -> _.
    rewrite (IH _ _ _ _ _ A1 A2 Er1). unfold step in Es. cbn [step_ base_step do_update_particles] in Es.
    destruct (if (_ || _) then _ else _) as [g1 r] in Es. destruct r as [x|]; [|discriminate]. destruct (absorb E g1 y x) as [g2 r2]. destruct r2 as [z|]; [|discriminate]. cbn [bind] in Es.
    destruct (run_callbacks E cbs y (seen_by_callbacks (Same z))). injection Es as <- _ _. cbn [a_first i_blocks List.length]. lia.
  Qed.
  (** A new FixedWidthNESS rejuvenates before taking in an observation exactly if, this observation included, the number of
      observations is a multiple of the block length, or some weight is unusable.  (So the first block has one observation less.) *)
  Theorem C83_partial : forall bl d cbs np rnd drawn placed xs a s calls y, List.length drawn = B -> List.length placed = B ->
    fit_alg E (Plain (FixedWidthNESS bl d)) cbs (new_alg np rnd) drawn placed xs = (a, Ok (s, calls)) ->
    let '(_, g', _) := base_step E (FixedWidthNESS bl d) (a_first a) (a_world a) y s in
    (((List.length xs + 1) mod bl = 0 \/ unusable (s_w s)) -> g_updates g' = S (g_updates (a_world a))) /\
    (~ ((List.length xs + 1) mod bl = 0 \/ unusable (s_w s)) -> g_updates g' = g_updates (a_world a)).
  Proof.
    intros bl d cbs np rnd drawn placed xs a s calls y L1 L2 Ef. destruct (reached (Plain (FixedWidthNESS bl d)) cbs (new_alg np rnd) drawn placed xs a s calls I L1 L2 eq_refl Ef) as (WG & WS & _).
    assert (Bl : i_blocks (a_first a) = List.length xs).
    { unfold fit_alg in Ef. destruct (initial_ok E OK (Plain (FixedWidthNESS bl d)) (new_alg np rnd) drawn placed L1 L2) as [e Ei]. rewrite Ei in Ef. apply fixed_blocks in Ef; [exact Ef|split; assumption|split; [apply repeat_length|now apply init_len]]. }
    cbn [base_step do_update_particles discrete_of i_blocks]. rewrite Bl.
    assert (D : (S (List.length xs) mod bl =? 0) || nonfinite (s_w s) = true <-> (List.length xs + 1) mod bl = 0 \/ unusable (s_w s)).
    { rewrite orb_true_iff, nonfinite_iff, Nat.eqb_eq, Nat.add_1_r. reflexivity. }
    destruct (_ || _).
    - destruct (online_ok E OK d (a_world a) s WG WS) as (p & rows & fs & ctx & _ & _ & _ & _ & _ & _ & _ & Lf & Lc & ->). set (g1 := World _ _ _ _ _). set (s1 := St _ _ _ _ _).
      destruct (absorb_ok E OK g1 y s1) as (_ & e & -> & _ & _); [split; exact Lc|split; [cbn; unfold zeros; rewrite map_length; apply WS|exact Lf]|]. cbn. split; [reflexivity|]. intros N. exfalso. apply N, D. reflexivity.
    - destruct (absorb_ok E OK (a_world a) y s WG WS) as (_ & e & -> & _ & _). cbn. split; [|reflexivity]. intros H. apply D in H. discriminate.
  Qed.
End Dispatch.

(** ** Counterexamples and examples *)
(** C53: with [switch = 0] the first algorithm still gets an observation. *)
Theorem C53_refuted : exists a s calls, fit_alg (toy false) (Combined (SMC2 smc2_half) (NESS (1 / 2) false) 0) [] (new_alg 100 0) [0; 1] [0; 1] [counts_np; flat] = (a, Ok (s, calls)) /\ s_data s = Some [counts_np] /\ a_switched a = true.
Proof.
  destruct C50_nonvacuous as (Ok' & Co & a & s & calls & Ef & _ & Sw). exists a, s, calls. split; [exact Ef|]. split; [|exact Sw].
  pose proof (C50_bookkeeping (toy false) Ok' toy_nessmc2 [] (new_alg 100 0) [0; 1] [0; 1] [counts_np; flat] Co eq_refl eq_refl eq_refl) as H. rewrite Ef in H. apply H.
Qed.
(** C57: when state particles are added, the callback gets the old state: the log likelihoods are those of the old filter. *)
Theorem C57_refuted : forall cb, cb_reads cb = false -> exists a s t, step (toy false) (Plain (SMC2 smc2_half)) [cb] (Alg inst0 inst0 false (World [0; 1] [0; 1] 100 0 0)) counts_np (St [Fin 0; Fin 0] [(0, Fin 0); (0, Fin 0)] [] (Some []) 0) =
    (a, Ok (s, [(cb_id cb, counts_np, t)])) /\ map snd (s_fs t) = [Fin 100; Fin 100] /\ map snd (s_fs s) = [Fin 200; Fin 200].
Proof.
  intros cb Hr. unfold step. cbn [step_ a_first a_world]. destruct (toy_increase false 100 0 0 []) as (old & new & rnd' & e & -> & -> & ->). cbn [seen_by_callbacks run_callbacks]. do 3 eexists. split; [reflexivity|].
  cbn [bump_iteration s_fs map snd]. rewrite mult_INR, !Rplus_0_l, inr2. replace (INR 100) with 100%R by (rewrite INR_IZR_INZ; reflexivity). replace (100 * 2)%R with 200%R by ring. split; reflexivity.
Qed.
(** C81 fails if the context moves its parameters after the model was built (QuasiInferenceContext) and the model computes
    with its parameters: parameters 3 and 4, likelihoods of 1 and 2. *)
Theorem C81_refuted : exists a s calls, fit_alg (toy true) (Plain (SMC2 smc2_half)) [] (new_alg 100 0) [1; 2] [3; 4] [echo] = (a, Ok (s, calls)) /\
  slot (g_ctx (a_world a)) 0 = Some 3 /\ exists f, slot (s_fs s) 0 = Some f /\ ~ filtered (toy true) 3 [echo] f.
Proof.
  set (E := toy true). pose proof (toy_ok true) as OK. fold E in OK. unfold fit_alg. destruct (initial_ok E OK (Plain (SMC2 smc2_half)) (new_alg 100 0) [1; 2] [3; 4] eq_refl eq_refl) as [e ->].
  cbn [run]. unfold step. cbn [step_ a_first a_world new_alg keeps_data g_np g_rnd g_updates a_second a_switched]. set (g := World _ _ _ _ _). cbn [base_step s_data s_w s_fs s_ess s_iter app]. set (s := St _ _ _ _ _).
  destruct (absorb_ok E OK g echo s) as (_ & e1 & -> & _ & Ee); [split; reflexivity|split; reflexivity|]. cbn [s s_ess s_w app newest last s_data s_iter smc2_half c_threshold].
  change (INR (e_B E)) with (1 + 1)%R. replace (1 + 1)%R with 2%R by ring. rewrite (not_below_one e1 Ee). cbn [orb seen_by_callbacks run_callbacks].
  match goal with |- context [nonfinite ?w] => replace (nonfinite w) with false by reflexivity end. cbn [seen_by_callbacks run_callbacks bind]. do 3 eexists. split; [reflexivity|]. split; [reflexivity|]. eexists. split; [reflexivity|].
  intros H. apply filtered_one in H as (rnd & np & b & rnd' & np' & b' & H). cbn in H. injection H as H. lra.
Qed.
(** C83: with blocks of two observations the particles are rejuvenated after the first one already. *)
Theorem C83_refuted : exists a s calls, fit_alg (toy false) (Plain (FixedWidthNESS 2 false)) [] (new_alg 100 0) [0; 1] [0; 1] [flat] = (a, Ok (s, calls)) /\ ~ unusable (s_w s) /\
  let '(_, g', _) := base_step (toy false) (FixedWidthNESS 2 false) (a_first a) (a_world a) flat s in g_updates g' = S (g_updates (a_world a)).
Proof.
  set (E := toy false). pose proof (toy_ok false) as OK. fold E in OK.
  assert (Ef : exists a s calls, fit_alg E (Plain (FixedWidthNESS 2 false)) [] (new_alg 100 0) [0; 1] [0; 1] [flat] = (a, Ok (s, calls)) /\ s_w s = [Fin (0 + 0); Fin (0 + 0)]).
  { unfold fit_alg. destruct (initial_ok E OK (Plain (FixedWidthNESS 2 false)) (new_alg 100 0) [0; 1] [0; 1] eq_refl eq_refl) as [e ->]. cbn [run]. unfold step.
    cbn [step_ a_first a_world new_alg keeps_data g_np g_rnd g_updates a_second a_switched base_step do_update_particles inst0 i_blocks].
    match goal with |- context [nonfinite ?w] => replace (nonfinite w) with false by reflexivity end. cbn [Nat.modulo Nat.divmod fst snd Nat.sub Nat.eqb orb].
    match goal with |- context [absorb _ ?x ?z ?t] => destruct (absorb_ok E OK x z t) as (_ & e1 & -> & _); [split; reflexivity|split; reflexivity|] end. do 3 eexists. split; reflexivity. }
  destruct Ef as (a & s & calls & Ef & Ew). exists a, s, calls. split; [exact Ef|]. split; [rewrite Ew; intros (x & [<-|[<-|[]]] & [])|].
  pose proof (C83_partial E OK 2 false [] 100 0 [0; 1] [0; 1] [flat] a s calls flat eq_refl eq_refl Ef) as H. destruct (base_step E _ _ _ _ _) as [[i g'] r]. destruct H as [H _]. apply H. left. reflexivity.
Qed.
Example C57_nonvacuous : fold_left register_callback [Some (Callback 3 false); None; Some (Callback 1 true); Some (Callback 3 false)] [] = [Callback 3 false; Callback 1 true].
Proof. reflexivity. Qed.
(** The state after an increase: the filter of slot 0 is a run with parameter 1 (twice as many particles). *)
Example C81_nonvacuous : filtered (toy false) 1 [counts_np] (1, Fin (0 + INR 200)).
Proof. exact (filtered_next (toy false) 1 0 200 0 [] counts_np 0 (Fin 0) (filtered_start (toy false) 1 0 200 0)). Qed.
Example C82_nonvacuous : exists a s calls e, run (toy false) (Plain (NESS (1 / 2) false)) [] (Alg inst0 inst0 false (World [0; 1] [0; 1] 100 1 0)) [echo] (St [Fin 0; Fin 0] [(0, Fin 0); (0, Fin 0)] [Fin 2] None 0) = (a, Ok (s, calls)) /\
  g_updates (a_world a) = 0 /\ s = St [Fin (0 + 0); Fin (0 + 1)] [(1, Fin (0 + 0)); (1, Fin (0 + 1))] [Fin 2; e] None 1.
Proof. exact C51_nonvacuous. Qed.
Print Assumptions C53_partial.
Print Assumptions C53_second_fit_refuted.
Print Assumptions C57_register.
Print Assumptions C57_calls.
Print Assumptions C57_state_partial.
Print Assumptions C81_smc2_partial.
Print Assumptions C82_alone.
Print Assumptions C83_partial.
Print Assumptions C53_refuted.
Print Assumptions C57_refuted.
Print Assumptions C81_refuted.
Print Assumptions C83_refuted.
