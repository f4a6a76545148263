(** When rejuvenation happens, and what the weights of the parameter particles are (C51, C52, C54). *)
From Coq Require Import Reals List Bool Arith Lia Lra.
From Verif.Model Require Import Base Xf Weights Pmmh Sequential.
From Verif.Spec Require Import PmmhSpec SequentialSpec.
From Verif.Proofs Require Import WeightsProofs SequentialProofs SequentialToy.
From Verif.Props Require Import WeightsProps PmmhProps SequentialProps SequentialMoves.
Import ListNotations.
Local Open Scope nat_scope.

(** ** Effective sample sizes *)
Lemma nonfinite_iff w : nonfinite w = true <-> unusable w.
Proof.
  unfold nonfinite, unusable. rewrite existsb_exists. split; intros (x & I1 & I2); exists x; (split; [exact I1|]); destruct x; cbn in *; auto; try discriminate; contradiction.
Qed.
Lemma newest_snoc l e : newest (l ++ [e]) = e.
Proof. unfold newest. now rewrite last_last. Qed.
Lemma low_iff frac B ess : ess_ok ess -> xlt (newest ess) (Fin (frac * INR B)) = true <-> low_ess frac B ess.
Proof.
  intros [N Fo]. destruct (exists_last N) as (l & e & ->). rewrite newest_snoc. apply Forall_app in Fo as [_ Fo]. inversion Fo as [|? ? He _]; subst.
  split.
  - destruct He as [->|(r & -> & _)]; cbn; [discriminate|]. destruct (Rlt_dec r (frac * INR B)); [|discriminate]. intros _. exists l, r. auto.
  - intros (l' & r & Eq & L). apply app_inj_tail in Eq as [_ ->]. cbn. now destruct (Rlt_dec r (frac * INR B)).
Qed.
Lemma any_ess ess : ess_ok ess -> existsb (fun e => negb (xeq e (Fin 0))) ess = true.
Proof.
  intros [N Fo]. destruct ess as [|e ess]; [now contradiction N|]. inversion Fo as [|? ? He _]; subst. apply existsb_exists. exists e. split; [now left|].
  destruct He as [->|(r & -> & L)]; cbn; [reflexivity|]. destruct (Req_EM_T r 0); [lra|reflexivity].
Qed.

Section Trigger.
  Context {T F Y K : Type} (E : env T F Y K) (OK : env_ok E).
  Notation B := (e_B E).
  Notation increments g y s := (map snd (corrections E (g_rnd g) (g_np g) (g_model g) (g_ctx g) y (s_fs s))).

  Lemma stored_weights w inc : map (nan_to_num (e_lowest E)) (zip_with xadd w inc) = zip_with (add_weight (e_lowest E)) w inc.
  Proof. unfold zip_with. rewrite map_map. apply map_ext. intros [a z]. cbn. unfold add_weight. destruct (xadd a z); reflexivity. Qed.

  (** C52, NESS: at the next observation the particles are rejuvenated exactly if the newest recorded effective sample size
      is below the threshold or some stored weight is not finite. *)
  Theorem C52_ness : forall thr d i g y s, world_ok E g -> state_ok E s -> ess_ok (s_ess s) ->
    let '(_, g', r) := base_step E (NESS thr d) i g y s in
    ((low_ess thr B (s_ess s) \/ unusable (s_w s)) -> g_updates g' = S (g_updates g)) /\
    (~ (low_ess thr B (s_ess s) \/ unusable (s_w s)) -> g_updates g' = g_updates g).
  Proof.
    intros thr d i g y s WG WS EO. cbn [base_step do_update_particles discrete_of]. rewrite (any_ess _ EO). cbn [andb].
    assert (D : xlt (newest (s_ess s)) (Fin (thr * INR B)) || nonfinite (s_w s) = true <-> low_ess thr B (s_ess s) \/ unusable (s_w s)).
    { rewrite orb_true_iff, (low_iff thr B _ EO), nonfinite_iff. reflexivity. }
    destruct (_ || _).
    - destruct (online_ok E OK d g s WG WS) as (p & rows & fs & ctx & _ & _ & _ & _ & _ & _ & _ & Lf & Lc & ->). set (g1 := World _ _ _ _ _). set (s1 := St _ _ _ _ _).
      destruct (absorb_ok E OK g1 y s1) as (_ & e & -> & _ & _); [split; exact Lc|split; [cbn; unfold zeros; rewrite map_length; apply WS|exact Lf]|]. cbn. split; [reflexivity|]. intros N. exfalso. apply N, D. reflexivity.
    - destruct (absorb_ok E OK g y s WG WS) as (_ & e & -> & _ & _). cbn. split; [|reflexivity]. intros H. apply D in H. discriminate.
  Qed.
  (** C52, SMC2: right after an observation, with the effective sample size just recorded and the weights just stored; the
      threshold policy is asked for the number of observations so far. *)
  Theorem C52_smc2 : forall c i g y s data, world_ok E g -> state_ok E s -> ess_ok (s_ess s) -> s_data s = Some data ->
    let '(_, g', r) := base_step E (SMC2 c) i g y s in
    exists e, (forall x, r = Ok x -> s_ess (result_of x) = s_ess s ++ [e]) /\ get_ess (e_lowest E) (zip_with xadd (s_w s) (increments g y s)) false = Ok (e, zip_with (add_weight (e_lowest E)) (s_w s) (increments g y s)) /\
    let w := zip_with (add_weight (e_lowest E)) (s_w s) (increments g y s) in
    let frac := c_threshold c (List.length (s_ess s)) in
    ((low_ess frac B (s_ess s ++ [e]) \/ unusable w) -> g_updates g' = S (g_updates g)) /\
    (~ (low_ess frac B (s_ess s ++ [e]) \/ unusable w) -> g_updates g' = g_updates g).
  Proof.
    intros c i g y s data WG WS EO Sd. pose proof (base_step_frame E OK (SMC2 c) i g y s WG WS) as Fr. cbn [base_step] in *. rewrite Sd in *.
    set (s0 := St (s_w s) (s_fs s) (s_ess s) (Some (data ++ [y])) (s_iter s)) in *. assert (W0 : state_ok E s0) by exact WS.
    destruct (absorb_ok E OK g y s0 WG W0) as (Lc & e & Ea & Ee & Ey). rewrite Ea in *. cbn [s0 s_w s_fs s_ess s_data s_iter] in *. rewrite stored_weights in *.
    set (w1 := zip_with (add_weight _) _ _) in *.
    assert (EO1 : ess_ok (s_ess s ++ [e])).
    { destruct EO as [N Fo]. split; [destruct (s_ess s); discriminate|]. apply Forall_app. split; [exact Fo|]. constructor; [exact Ey|constructor]. }
    replace (List.length (s_ess s ++ [e]) - 1) with (List.length (s_ess s)) in * by (rewrite app_length; cbn; lia).
    assert (D : xlt (newest (s_ess s ++ [e])) (Fin (c_threshold c (List.length (s_ess s)) * INR B)) || nonfinite w1 = true <-> low_ess (c_threshold c (List.length (s_ess s))) B (s_ess s ++ [e]) \/ unusable w1).
    { rewrite orb_true_iff, (low_iff _ B _ EO1), nonfinite_iff. reflexivity. }
    destruct (_ || _).
    - set (g1 := tick 1 g) in *. set (s1 := St w1 _ _ _ _) in *. assert (W1 : state_ok E s1) by (split; [apply zip_len; [apply WS|now rewrite map_length]|now apply append_len; [apply WS|]]).
      destruct (pmmh_ok E OK c (i_increases i) g1 s1 _ WG W1 eq_refl) as (p & idx & rows & fs & _ & _ & _ & _ & _ & _ & _ & _ & M).
      assert (Up : let '(_, g2, r2) := pmmh_update E c (i_increases i) g1 s1 in g_updates g2 = S (g_updates g) /\ forall x, r2 = Ok x -> s_ess (result_of x) = s_ess s ++ [e]).
      { destruct (pmmh_moves _ _ _ _ _ _ _ _ _ _ _ _ _) as [[[[ctx fs'] rnd] accs] low]. destruct M as (M1 & M2 & ->). destruct low; [|split; [reflexivity|]; intros x Ex; injection Ex as <-; reflexivity].
        set (gg := World ctx _ _ _ _). set (s' := St _ _ _ _ _). assert (Wgg : world_ok E gg) by (split; [exact M1|apply WG]). assert (Ws' : state_ok E s') by (split; [cbn; rewrite map_length; apply W1|exact M2]).
        destruct (increase_ok E OK c (i_increases i) gg (data ++ [y]) s' Wgg Ws') as [I1 I2]. destruct (Nat.lt_ge_cases (i_increases i) (c_max c)) as [Q|Q].
        - destruct (I2 Q) as (_ & _ & ->). split; [reflexivity|]. intros x Ex. injection Ex as <-. reflexivity.
        - rewrite (I1 Q). split; [reflexivity|]. discriminate. }
      destruct (pmmh_update E c (i_increases i) g1 s1) as [[n g2] r2]. destruct Up as [Up1 Up2]. exists e. split; [exact Up2|]. split; [exact Ee|]. cbv zeta. split; [intros _; exact Up1|]. intros N. exfalso. apply N, D. reflexivity.
    - exists e. split; [intros x Ex; injection Ex as <-; reflexivity|]. split; [exact Ee|]. cbv zeta. split; [|reflexivity]. intros H. apply D in H. discriminate.
  Qed.
  (** Recorded effective sample sizes are sane from the start on. *)
  Theorem C52_ess_initial : forall c a drawn placed s, List.length drawn = B -> List.length placed = B -> snd (initialize_alg E c a drawn placed) = Ok s -> ess_ok (s_ess s).
  Proof.
    intros c a drawn placed s L1 L2 H. unfold initialize_alg, new_state in H. cbn [snd] in H. destruct (get_ess (e_lowest E) (repeat (Fin 0) B) false) as [[e w']|] eqn:Eg; [|discriminate].
    cbn in H. injection H as <-. cbn. split; [discriminate|]. constructor; [|constructor]. eapply get_ess_range; [|exact Eg]. apply (len_nonnil _ B); [apply repeat_length|apply Bpos; exact OK].
  Qed.
  Theorem C52_ess_step : forall c cbs a y s a' s' calls, world_ok E (a_world a) -> state_ok E s -> ess_ok (s_ess s) -> step E c cbs a y s = (a', Ok (s', calls)) -> ess_ok (s_ess s').
  Proof.
    intros c cbs a y s a' s' calls WG WS [N Fo] H. pose proof (step_frame E OK c cbs a y s WG WS) as Fr. rewrite H in Fr. destruct Fr as (_ & _ & _ & (e & -> & Ey) & _).
    split; [destruct (s_ess s); discriminate|]. apply Forall_app. split; [exact Fo|]. constructor; [exact Ey|constructor].
  Qed.

  (** What a rejuvenating step does to the counter, whatever the algorithm. *)
  Lemma pmmh_counts c n g s data : world_ok E g -> state_ok E s -> s_data s = Some data ->
    let '(n', g', r) := pmmh_update E c n g s in
    g_updates g' = S (g_updates g) /\
    match r with
    | Ok (Same s') => n' = n /\ g_np g' = g_np g /\ s_w s' = repeat (Fin 0) B
    | Ok (Fresh old new) => n < c_max c /\ n' = S n /\ g_np g' = g_np g * 2 /\ List.length (s_fs old) = B /\ List.length (s_fs new) = B /\
        s_w new = zip_with (fun x z => nan_to_num (e_lowest E) (xsub x z)) (map snd (s_fs new)) (map snd (s_fs old))
    | Raise e => e = TooManyIncreases /\ c_max c <= n /\ n' = S n /\ g_np g' = g_np g
    end.
  Proof.
    intros WG WS Sd. destruct (pmmh_ok E OK c n g s data WG WS Sd) as (p & idx & rows & fs & _ & _ & _ & _ & _ & _ & _ & _ & M).
    destruct (pmmh_moves _ _ _ _ _ _ _ _ _ _ _ _ _) as [[[[ctx fs'] rnd] accs] low]. destruct M as (M1 & M2 & ->). destruct low.
    - set (gg := World ctx _ _ _ _). set (s' := St _ _ _ _ _). assert (Wgg : world_ok E gg) by (split; [exact M1|apply WG]). assert (Ws' : state_ok E s') by (split; [cbn; rewrite map_length; apply WS|exact M2]).
      destruct (increase_ok E OK c n gg data s' Wgg Ws') as [I1 I2]. destruct (Nat.lt_ge_cases n (c_max c)) as [Q|Q].
      + destruct (I2 Q) as (Lf & Lw & ->). split; [reflexivity|]. cbn [s_fs s_w g_np]. split; [exact Q|]. split; [reflexivity|]. split; [reflexivity|]. split; [exact M2|]. split; [exact Lf|].
        unfold zip_with. rewrite map_map. reflexivity.
      + rewrite (I1 Q). split; [reflexivity|]. split; [reflexivity|]. split; [exact Q|]. split; reflexivity.
    - split; [reflexivity|]. cbn [s_w g_np]. split; [reflexivity|]. split; [reflexivity|]. unfold zeros. destruct WS as [S1 _]. rewrite <- S1. clear. induction (s_w s); cbn; congruence.
  Qed.

  Lemma zeros_repeat w : List.length w = B -> zeros w = repeat (Fin 0) B.
  Proof. intros <-. unfold zeros. induction w; cbn; congruence. Qed.

  (** A step without a rejuvenation. *)
  Lemma base_step_quiet b i g y s : world_ok E g -> state_ok E s ->
    let '(i', g', r) := base_step E b i g y s in
    g_updates g <= g_updates g' /\
    (g_updates g' = g_updates g -> forall x, r = Ok x -> exists s', x = Same s' /\ g' = tick 1 g /\ g_np g' = g_np g /\
       s_w s' = zip_with (add_weight (e_lowest E)) (s_w s) (increments g y s) /\
       s_fs s' = append_result (s_fs s) (corrections E (g_rnd g) (g_np g) (g_model g) (g_ctx g) y (s_fs s))).
  Proof.
    intros WG WS.
    assert (Online : match b with SMC2 _ => False | _ => True end -> let '(i', g', r) := base_step E b i g y s in
      g_updates g <= g_updates g' /\
      (g_updates g' = g_updates g -> forall x, r = Ok x -> exists s', x = Same s' /\ g' = tick 1 g /\ g_np g' = g_np g /\
       s_w s' = zip_with (add_weight (e_lowest E)) (s_w s) (increments g y s) /\
       s_fs s' = append_result (s_fs s) (corrections E (g_rnd g) (g_np g) (g_model g) (g_ctx g) y (s_fs s)))).
    { intros NS.
      assert (Eq : base_step E b i g y s =
        let (i', update) := do_update_particles E b i s in
        let (g1, r) := if update then online_update E (discrete_of b) g s else (g, Ok s) in
        match r with Raise e => (i', g1, Raise e) | Ok s1 => let (g2, r2) := absorb E g1 y s1 in (i', g2, let! s2 := r2 in Ok (Same s2)) end) by (destruct b; [reflexivity|reflexivity|contradiction]).
      rewrite Eq. clear Eq. destruct (do_update_particles E b i s) as [i' update]. destruct update.
      - destruct (online_ok E OK (discrete_of b) g s WG WS) as (p & rows & fs & ctx & _ & _ & _ & _ & _ & _ & _ & Lf & Lc & ->). set (g1 := World _ _ _ _ _). set (s1 := St _ _ _ _ _).
        destruct (absorb_ok E OK g1 y s1) as (_ & e & -> & _); [split; exact Lc|split; [cbn; unfold zeros; rewrite map_length; apply WS|exact Lf]|]. cbn. split; [lia|]. intros H. lia.
      - destruct (absorb_ok E OK g y s WG WS) as (_ & e & -> & _). cbn [bind g_updates tick]. split; [lia|]. intros _ x Ex. injection Ex as <-. eexists. split; [reflexivity|]. cbn [s_w s_fs]. rewrite stored_weights. auto. }
    destruct b as [thr d|bl d|c]; [exact (Online I)|exact (Online I)|]. clear Online. cbn [base_step].
    destruct (s_data s) as [data|] eqn:Sd; [|split; [lia|discriminate]].
    set (s0 := St (s_w s) (s_fs s) (s_ess s) (Some (data ++ [y])) (s_iter s)). assert (W0 : state_ok E s0) by exact WS.
    destruct (absorb_ok E OK g y s0 WG W0) as (Lc & e & -> & _). cbn [s0 s_w s_fs s_ess s_data s_iter] in *. rewrite stored_weights.
    destruct (_ || _).
    - set (g1 := tick 1 g) in *. set (s1 := St _ _ _ _ _). assert (W1 : state_ok E s1) by (split; [apply zip_len; [apply WS|now rewrite map_length]|apply append_len; [apply WS|exact Lc]]).
      pose proof (pmmh_counts c (i_increases i) g1 s1 _ WG W1 eq_refl) as H. destruct (pmmh_update E c (i_increases i) g1 s1) as [[n g2] r2]. destruct H as [H _]. split; [rewrite H; cbn; lia|]. intros Q. rewrite H in Q. cbn in Q. lia.
    - split; [cbn; lia|]. intros _ x Ex. injection Ex as <-. eexists. split; [reflexivity|]. cbn [s_w s_fs]. auto.
  Qed.

  (** One slot through callbacks that read the weights. *)
  Lemma callbacks_slot cbs y b v : forall s, state_ok E s -> slot (s_w s) b = Some (Fin v) -> slot (s_w (snd (run_callbacks E cbs y s))) b = Some (Fin v).
  Proof.
    induction cbs as [|c cbs IH]; intros s WS Hb; cbn [run_callbacks]; [exact Hb|].
    set (s1 := if cb_reads c then read_weights E s else s). assert (H : state_ok E s1 /\ slot (s_w s1) b = Some (Fin v)).
    { unfold s1. destruct (cb_reads c); [|auto]. rewrite (read_frame E OK s WS). split; [split; [cbn; rewrite map_length; apply WS|apply WS]|]. unfold slot in *. cbn. rewrite nth_error_map, Hb. reflexivity. }
    destruct H as [H1 H2]. specialize (IH s1 H1 H2). destruct (run_callbacks E cbs y s1). exact IH.
  Qed.

  Lemma step_quiet c cbs a y s a' s' calls : world_ok E (a_world a) -> state_ok E s -> step E c cbs a y s = (a', Ok (s', calls)) ->
    g_updates (a_world a) <= g_updates (a_world a') /\
    (g_updates (a_world a') = g_updates (a_world a) -> forall b u x f f' z, slot (s_w s) b = Some u -> slot (s_fs s) b = Some (f, x) -> slot (s_fs s') b = Some (f', z) ->
       exists inc, z = xadd x inc /\ forall v, add_weight (e_lowest E) u inc = Fin v -> slot (s_w s') b = Some (Fin v)).
  Proof.
    intros WG WS. unfold step. rewrite (step_eq E c). pose proof (base_step_quiet (active c a s) (instance c a s) (a_world a) y s WG WS) as H.
    pose proof (base_step_frame E OK (active c a s) (instance c a s) (a_world a) y s WG WS) as Fr.
    destruct (base_step E _ _ _ _ _) as [[i g] r]. destruct H as [H1 H2]. destruct r as [x|e]; [|discriminate].
    destruct Fr as (_ & Fo & Fs & _). destruct (run_callbacks E cbs y (seen_by_callbacks x)) as [calls0 seen] eqn:Rc. intros Eq. injection Eq as <- <- <-.
    assert (Wd : a_world (if uses_first c a s then Alg i (a_second a) (a_switched a) g else Alg (a_first a) i true g) = g) by (destruct (uses_first c a s); reflexivity). rewrite Wd.
    split; [exact H1|]. intros Q b u xx f f' z Eb1 Eb2 Eb3. destruct (H2 Q x eq_refl) as (s1 & -> & _ & _ & Ew & Ef). cbn [seen_by_callbacks] in *.
    pose proof (callbacks_frame E OK cbs y s1 (proj1 Fo)) as C. rewrite Rc in C. destruct C as (_ & C2 & _). cbn [bump_iteration s_fs s_w] in *. rewrite C2, Ef in Eb3.
    destruct WG as [G1 G2]. destruct WS as [S1 S2]. assert (Hb : b < B) by (rewrite <- S2; apply nth_error_Some; unfold slot in Eb2; rewrite Eb2; discriminate).
    set (cs := corrections E _ _ _ _ _ _) in *. assert (Lc : List.length cs = B) by now apply corrections_len. destruct (nth_some cs b ltac:(lia)) as [[f1 inc] Ec].
    unfold slot in *. unfold append_result in Eb3. rewrite (zip_nth _ _ _ b _ _ Eb2 Ec) in Eb3. cbn in Eb3. injection Eb3 as <- <-. exists inc. split; [reflexivity|]. intros v Ev.
    pose proof (callbacks_slot cbs y b v s1 (proj1 Fo)) as Cs. rewrite Rc in Cs. apply Cs. rewrite Ew. unfold slot. rewrite (zip_nth _ _ _ b u inc Eb1); [now rewrite Ev|]. rewrite nth_error_map, Ec. reflexivity.
  Qed.

  (** C51.  While no rejuvenation takes place, the weight of a slot changes by the change of the log likelihood of its filter. *)
  Theorem C51_accumulates : forall c cbs ys a s a' s' calls, compatible c -> world_ok E (a_world a) -> state_ok E s -> switch_ok c a (s_iter s) -> data_ok c s ->
    run E c cbs a ys s = (a', Ok (s', calls)) -> g_updates (a_world a') = g_updates (a_world a) ->
    forall b v f l f' l', slot (s_w s) b = Some (Fin v) -> slot (s_fs s) b = Some (f, Fin l) -> slot (s_fs s') b = Some (f', Fin l') ->
    slot (s_w s') b = Some (Fin (v + (l' - l))).
  Proof.
    intros c cbs ys a s a' s' calls _ WG WS SO DO Er Q.
    assert (G : forall ys a s calls, world_ok E (a_world a) -> state_ok E s -> switch_ok c a (s_iter s) -> data_ok c s -> run E c cbs a ys s = (a', Ok (s', calls)) ->
      g_updates (a_world a) <= g_updates (a_world a') /\ (g_updates (a_world a') = g_updates (a_world a) ->
      forall b u x f f' l', slot (s_w s) b = Some u -> slot (s_fs s) b = Some (f, x) -> slot (s_fs s') b = Some (f', Fin l') ->
        exists l, x = Fin l /\ forall v, u = Fin v -> slot (s_w s') b = Some (Fin (v + (l' - l))))).
    { clear - OK. induction ys as [|y ys IH]; intros a s calls WG WS SO DO Er; cbn [run] in Er.
      - injection Er as -> -> _. split; [lia|]. intros _ b u x f f' l' E1 E2 E3. rewrite E2 in E3. injection E3 as -> ->. exists l'. split; [reflexivity|]. intros v ->. rewrite E1. do 2 f_equal. ring.
      - pose proof (step_frame E OK c cbs a y s WG WS) as Fr. destruct (step E c cbs a y s) as [a1 r1] eqn:Es. destruct r1 as [[s1 calls1]|e]; [|discriminate].
        destruct Fr as (A1 & A2 & A3 & _ & A5 & _ & _ & A8). pose proof (step_quiet c cbs a y s a1 s1 calls1 WG WS Es) as [Q1 Q2].
        assert (SO1 : switch_ok c a1 (s_iter s1)) by (rewrite A3; now apply (switch_next c a s)).
        assert (DO1 : data_ok c s1).
        { split; [apply DO|]. intros N. apply DO. rewrite A5 in N. destruct (active c a s); [exact N|exact N|]. destruct (s_data s); [discriminate|reflexivity]. }
        destruct (run E c cbs a1 ys s1) as [a2 r2] eqn:Er1. destruct r2 as [[s2 calls2]|]; [|discriminate]. cbn in Er. injection Er as -> -> _.
        destruct (IH a1 s1 calls2 A1 A2 SO1 DO1 Er1) as [R1 R2]. split; [lia|]. intros Eu b u x f f' l' E1 E2 E3.
        assert (Hb : b < B) by (destruct WS as [_ <-]; apply nth_error_Some; unfold slot in E2; rewrite E2; discriminate).
        destruct (nth_some (s_fs s1) b) as [[f1 z1] Ez]; [destruct A2 as [_ ->]; exact Hb|]. destruct (nth_some (s_w s1) b) as [u1 Eu1]; [destruct A2 as [-> _]; exact Hb|].
        destruct (R2 ltac:(lia) b u1 z1 f1 f' l' Eu1 Ez E3) as (l1 & -> & R3). destruct (Q2 ltac:(lia) b u x f f1 (Fin l1) E1 E2 Ez) as (inc & Ei & Qw).
        destruct x as [l| | |], inc as [d| | |]; cbn in Ei; try discriminate. injection Ei as Ei. exists l. split; [reflexivity|]. intros v ->. specialize (Qw (v + d)%R eq_refl).
        unfold slot in Qw. rewrite Eu1 in Qw. injection Qw as ->. rewrite (R3 (v + d)%R eq_refl). do 2 f_equal. lra. }
    intros b v f l f' l' E1 E2 E3. destruct (G ys a s calls WG WS SO DO Er) as [_ H]. destruct (H Q b _ _ f f' l' E1 E2 E3) as (l0 & E0 & H0). injection E0 as ->. now apply H0.
  Qed.

  (** C51, NESS.  A rejuvenation sets the weights to zero before the observation is taken in: afterwards the weight is the
      likelihood increment of that observation. *)
  Theorem C51_ness : forall b i g y s, match b with SMC2 _ => False | _ => True end -> world_ok E g -> state_ok E s ->
    let '(i', g', r) := base_step E b i g y s in
    g_updates g' = S (g_updates g) -> exists s' idx p w', r = Ok (Same s') /\ normalize (e_lowest E) (s_w s) = Ok (p, w') /\ idx = e_resample E (g_rnd g) p /\
      forall j f' l', slot (s_fs s') j = Some (f', Fin l') -> exists k f l, slot idx j = Some k /\ slot (s_fs s) k = Some (f, Fin l) /\ slot (s_w s') j = Some (Fin (l' - l)).
  Proof.
    intros b i g y s NS WG WS.
    assert (Eq : base_step E b i g y s =
      let (i', update) := do_update_particles E b i s in
      let (g1, r) := if update then online_update E (discrete_of b) g s else (g, Ok s) in
      match r with Raise e => (i', g1, Raise e) | Ok s1 => let (g2, r2) := absorb E g1 y s1 in (i', g2, let! s2 := r2 in Ok (Same s2)) end) by (destruct b; [reflexivity|reflexivity|contradiction]).
    rewrite Eq. clear Eq. destruct (do_update_particles E b i s) as [i' update]. destruct update.
    - destruct (online_ok E OK (discrete_of b) g s WG WS) as (p & rows & fs & ctx & En & _ & Ef & Li & Fi & _ & _ & Lf & Lc & ->). set (idx := e_resample E (g_rnd g) p) in *.
      set (g1 := World _ _ _ _ _). set (s1 := St _ _ _ _ _). destruct (absorb_ok E OK g1 y s1) as (Lcs & e & -> & _); [split; exact Lc|split; [cbn; unfold zeros; rewrite map_length; apply WS|exact Lf]|].
      intros _. cbn [bind]. do 4 eexists. split; [reflexivity|]. split; [exact En|]. split; [reflexivity|]. cbn [s_fs s_w s1]. rewrite stored_weights. cbn [s_fs s1] in Lcs. set (cs := corrections _ _ _ _ _ _ _) in *. intros j f' l' Ej.
      assert (Hj : j < B). { pose proof (append_len E fs cs Lf Lcs) as La. rewrite <- La. apply nth_error_Some. unfold slot in Ej. rewrite Ej. discriminate. }
      destruct (gather_ok (s_fs s) idx) as (r2 & Q4 & Q5 & Q6); [destruct WS as [_ ->]; exact Fi|]. rewrite Ef in Q4. injection Q4 as <-.
      destruct (nth_some idx j ltac:(lia)) as [k Ek]. destruct (nth_some fs j ltac:(lia)) as [[f x] Ex]. destruct (nth_some cs j ltac:(lia)) as [[f1 inc] Ec].
      unfold slot in *. unfold append_result in Ej. rewrite (zip_nth _ _ _ j _ _ Ex Ec) in Ej. cbn in Ej. injection Ej as -> Ei. destruct x as [l| | |], inc as [d| | |]; cbn in Ei; try discriminate. injection Ei as <-.
      exists k, f, l. split; [exact Ek|]. split; [now rewrite <- (Q6 j k Ek)|]. rewrite zeros_repeat by apply WS.
      rewrite (zip_nth _ _ _ j (Fin 0) (Fin d)); [cbn; do 2 f_equal; ring| |now rewrite nth_error_map, Ec]. rewrite (nth_error_nth' _ (Fin 0)) by now rewrite repeat_length. now rewrite nth_repeat.
    - destruct (absorb_ok E OK g y s WG WS) as (_ & e & -> & _). cbn. intros H. lia.
  Qed.
  (** C51, SMC2.  After a rejuvenation the weights are zero; after one with an increase of the state particles they are what the
      new filter estimates more than the old one. *)
  Theorem C51_smc2_partial : forall c i g y s, world_ok E g -> state_ok E s ->
    let '(i', g', r) := base_step E (SMC2 c) i g y s in
    g_updates g' = S (g_updates g) ->
    match r with
    | Ok (Same s') => s_w s' = repeat (Fin 0) B
    | Ok (Fresh old new) => g_np g' = g_np g * 2 /\
        forall b f l f' l', slot (s_fs old) b = Some (f, Fin l) -> slot (s_fs new) b = Some (f', Fin l') -> slot (s_w new) b = Some (Fin (l' - l))
    | Raise e => e = TooManyIncreases
    end.
  Proof.
    intros c i g y s WG WS. cbn [base_step]. destruct (s_data s) as [data|] eqn:Sd; [|intros; lia].
    set (s0 := St (s_w s) (s_fs s) (s_ess s) (Some (data ++ [y])) (s_iter s)). assert (W0 : state_ok E s0) by exact WS.
    destruct (absorb_ok E OK g y s0 WG W0) as (Lc & e & -> & _). destruct (_ || _); [|cbn; intros; lia].
    set (g1 := tick 1 g) in *. set (s1 := St _ _ _ _ _). assert (W1 : state_ok E s1) by exact (absorb_state_ok E s0 e _ Lc W0).
    pose proof (pmmh_counts c (i_increases i) g1 s1 _ WG W1 eq_refl) as H. destruct (pmmh_update E c (i_increases i) g1 s1) as [[n g2] r2]. destruct H as [_ H]. intros _.
    destruct r2 as [[s'|old new]|e']; [apply H| |apply H]. destruct H as (_ & _ & Hn & L1 & L2 & Ew). split; [exact Hn|]. intros b f l f' l' E1 E2. rewrite Ew. unfold slot in *.
    rewrite (zip_nth _ _ _ b (Fin l') (Fin l)); [reflexivity|now rewrite nth_error_map, E2|now rewrite nth_error_map, E1].
  Qed.

  (** ** C54 *)
  Definition cap (b : base) : nat := match b with SMC2 c => c_max c | _ => 0 end.
  Definition caps (c : cfg) : nat * nat := match c with Plain b => (cap b, 0) | Combined b1 b2 _ => (cap b1, cap b2) end.

  Lemma base_step_np b i g y s : world_ok E g -> state_ok E s ->
    let '(i', g', r) := base_step E b i g y s in
    match r with
    | Ok (Same _) => i_increases i' = i_increases i /\ g_np g' = g_np g
    | Ok (Fresh _ _) => i_increases i' = S (i_increases i) /\ i_increases i' <= cap b /\ g_np g' = g_np g * 2
    | Raise _ => g_np g' = g_np g
    end.
  Proof.
    intros WG WS. pose proof (base_step_frame E OK b i g y s WG WS) as Fr. destruct b as [thr d|bl d|c].
    - destruct (base_step E (NESS thr d) i g y s) as [[i' g'] r]. destruct r as [[s1|o n]|e]; [apply Fr|destruct Fr as (_ & _ & _ & _ & []) |destruct Fr as (c & ? & _); discriminate].
    - destruct (base_step E (FixedWidthNESS bl d) i g y s) as [[i' g'] r]. destruct r as [[s1|o n]|e]; [apply Fr|destruct Fr as (_ & _ & _ & _ & []) |destruct Fr as (c & ? & _); discriminate].
    - clear Fr. cbn [base_step]. destruct (s_data s) as [data|] eqn:Sd; [|reflexivity].
      set (s0 := St (s_w s) (s_fs s) (s_ess s) (Some (data ++ [y])) (s_iter s)). assert (W0 : state_ok E s0) by exact WS.
      destruct (absorb_ok E OK g y s0 WG W0) as (Lc & e & -> & _). destruct (_ || _); [|split; reflexivity].
      set (g1 := tick 1 g) in *. set (s1 := St _ _ _ _ _). assert (W1 : state_ok E s1) by exact (absorb_state_ok E s0 e _ Lc W0).
      pose proof (pmmh_counts c (i_increases i) g1 s1 _ WG W1 eq_refl) as H. destruct (pmmh_update E c (i_increases i) g1 s1) as [[n g2] r2]. destruct H as [_ H]. cbn [i_increases].
      destruct r2 as [[s'|old new]|e']; [split; apply H| |apply H]. destruct H as (H1 & H2 & H3 & _). cbn [cap]. rewrite H2. split; [reflexivity|]. split; [lia|exact H3].
  Qed.

  Lemma run_np c cbs : forall ys a s, world_ok E (a_world a) -> state_ok E s -> i_increases (a_first a) <= fst (caps c) -> i_increases (a_second a) <= snd (caps c) ->
    let (a', r) := run E c cbs a ys s in
    exists k1 k2, i_increases (a_first a) <= k1 <= fst (caps c) /\ i_increases (a_second a) <= k2 <= snd (caps c) /\
      g_np (a_world a') = g_np (a_world a) * 2 ^ ((k1 - i_increases (a_first a)) + (k2 - i_increases (a_second a))) /\
      (forall x, r = Ok x -> i_increases (a_first a') = k1 /\ i_increases (a_second a') = k2).
  Proof.
    induction ys as [|y ys IH]; intros a s WG WS C1 C2; cbn [run].
    { exists (i_increases (a_first a)), (i_increases (a_second a)). rewrite !Nat.sub_diag. cbn. repeat split; auto; lia. }
    pose proof (step_frame E OK c cbs a y s WG WS) as Fr.
    assert (St : let (a1, r1) := step E c cbs a y s in
      match r1 with
      | Ok _ => exists k1 k2, i_increases (a_first a1) = k1 /\ i_increases (a_second a1) = k2 /\ i_increases (a_first a) <= k1 <= fst (caps c) /\ i_increases (a_second a) <= k2 <= snd (caps c) /\
          g_np (a_world a1) = g_np (a_world a) * 2 ^ ((k1 - i_increases (a_first a)) + (k2 - i_increases (a_second a)))
      | Raise _ => g_np (a_world a1) = g_np (a_world a)
      end).
    { unfold step. rewrite (step_eq E c). pose proof (base_step_np (active c a s) (instance c a s) (a_world a) y s WG WS) as H. pose proof (base_step_frame E OK (active c a s) (instance c a s) (a_world a) y s WG WS) as Hf.
      destruct (base_step E _ _ _ _ _) as [[i g] r]. destruct r as [x|e]; [|destruct (uses_first c a s); exact H]. destruct (run_callbacks E cbs y (seen_by_callbacks x)) as [cl seen].
      assert (Ci : uses_first c a s = true -> cap (active c a s) <= fst (caps c)) by (destruct c as [b|b1 b2 sw]; cbn; [lia|intros ->; reflexivity]).
      assert (Cj : uses_first c a s = false -> cap (active c a s) <= snd (caps c)) by (destruct c as [b|b1 b2 sw]; cbn; [discriminate|intros ->; reflexivity]).
      unfold instance in H. destruct (uses_first c a s) eqn:U; cbn [a_first a_second a_world].
      - specialize (Ci eq_refl). exists (i_increases i), (i_increases (a_second a)). split; [reflexivity|]. split; [reflexivity|].
        destruct x as [s1|o n]; [destruct H as [H1 H2]|destruct H as (H1 & H2 & H3)]; rewrite ?Nat.sub_diag, ?H1, ?Nat.sub_diag.
        + rewrite H2. cbn. lia.
        + rewrite H3. replace (S (i_increases (a_first a)) - i_increases (a_first a)) with 1 by lia. cbn. lia.
      - specialize (Cj eq_refl). exists (i_increases (a_first a)), (i_increases i). split; [reflexivity|]. split; [reflexivity|].
        destruct x as [s1|o n]; [destruct H as [H1 H2]|destruct H as (H1 & H2 & H3)]; rewrite ?Nat.sub_diag, ?H1, ?Nat.sub_diag.
        + rewrite H2. cbn. lia.
        + rewrite H3. replace (S (i_increases (a_second a)) - i_increases (a_second a)) with 1 by lia. cbn. lia. }
    destruct (step E c cbs a y s) as [a1 r1]. destruct r1 as [[s1 calls1]|e].
    - destruct Fr as (A1 & A2 & _). destruct St as (k1 & k2 & K1 & K2 & K3 & K4 & K5). specialize (IH a1 s1 A1 A2 ltac:(lia) ltac:(lia)). destruct (run E c cbs a1 ys s1) as [a2 r2].
      destruct IH as (m1 & m2 & M1 & M2 & M3 & M4). exists m1, m2. split; [lia|]. split; [lia|]. split.
      + rewrite M3, K5, K1, K2. rewrite <- Nat.mul_assoc, <- Nat.pow_add_r. f_equal. f_equal. lia.
      + intros x Ex. destruct r2 as [[s2 cl2]|]; [|discriminate]. apply (M4 _ eq_refl).
    - exists (i_increases (a_first a)), (i_increases (a_second a)). rewrite !Nat.sub_diag. cbn. repeat split; auto; try lia; discriminate.
  Qed.

  (** C54.  Starting with [np] state particles there are [np * 2^k] after [k] increases, and there are never more increases than
      configured; a run that fails has not grown any further. *)
  Theorem C54_doubling : forall c cbs np rnd drawn placed ys, List.length drawn = B -> List.length placed = B ->
    let (a', r) := fit_alg E c cbs (new_alg np rnd) drawn placed ys in
    exists k1 k2, k1 <= fst (caps c) /\ k2 <= snd (caps c) /\ g_np (a_world a') = np * 2 ^ (k1 + k2) /\
      (forall x, r = Ok x -> i_increases (a_first a') = k1 /\ i_increases (a_second a') = k2).
  Proof.
    intros c cbs np rnd drawn placed ys L1 L2. unfold fit_alg. destruct (initial_ok E OK c (new_alg np rnd) drawn placed L1 L2) as [e ->]. set (a0 := Alg _ _ _ _). set (s0 := St _ _ _ _ _).
    assert (W0 : world_ok E (a_world a0)) by (split; assumption). assert (S0 : state_ok E s0) by (split; [apply repeat_length|now apply init_len]).
    pose proof (run_np c cbs ys a0 s0 W0 S0 ltac:(cbn; lia) ltac:(cbn; lia)) as H. destruct (run E c cbs a0 ys s0) as [a' r]. destruct H as (k1 & k2 & H1 & H2 & H3 & H4). exists k1, k2. split; [lia|]. split; [lia|].
    split; [|exact H4]. rewrite H3. cbn. rewrite !Nat.sub_0_r. reflexivity.
  Qed.
  (** The request after the last increase allowed fails, and so does every later one; an earlier one is granted. *)
  Theorem C54_refused : forall c n g s data, world_ok E g -> state_ok E s -> s_data s = Some data ->
    let '(n', g', r) := pmmh_update E c n g s in
    (c_max c <= n -> g_np g' = g_np g /\ ((exists s', r = Ok (Same s') /\ n' = n) \/ (r = Raise TooManyIncreases /\ n' = S n))) /\
    (n < c_max c -> exists x, r = Ok x /\ match x with Same _ => n' = n /\ g_np g' = g_np g | Fresh _ _ => n' = S n /\ g_np g' = g_np g * 2 end).
  Proof.
    intros c n g s data WG WS Sd. pose proof (pmmh_counts c n g s data WG WS Sd) as H. destruct (pmmh_update E c n g s) as [[n' g'] r]. destruct H as [_ H]. destruct r as [[s'|o nw]|e].
    - destruct H as (H1 & H2 & _). split; intros Q; [split; [exact H2|left; exists s'; auto]|exists (Same s'); auto].
    - destruct H as (H1 & H2 & H3 & _). split; intros Q; [lia|]. exists (Fresh o nw). auto.
    - destruct H as (-> & H1 & H2 & H3). split; intros Q; [|lia]. split; [exact H3|right; auto].
  Qed.
End Trigger.
Print Assumptions C52_ness.
Print Assumptions C52_smc2.
Print Assumptions C52_ess_initial.
Print Assumptions C52_ess_step.
Print Assumptions C51_accumulates.
Print Assumptions C51_ness.
Print Assumptions C51_smc2_partial.
Print Assumptions C54_doubling.
Print Assumptions C54_refused.

(** ** Examples and counterexamples *)
(** C51 fails after an increase: the weight is not zero although the particles were just rejuvenated. *)
Theorem C51_increase_refuted : exists g s, world_ok (toy false) g /\ state_ok (toy false) s /\
  let '(_, g', r) := base_step (toy false) (SMC2 smc2_half) inst0 g counts_np s in
  g_updates g' = S (g_updates g) /\ exists x v, r = Ok x /\ slot (s_w (result_of x)) 0 = Some (Fin v) /\ v <> 0%R.
Proof.
  exists (World [0; 1] [0; 1] 100 0 0), (St [Fin 0; Fin 0] [(0, Fin 0); (0, Fin 0)] [] (Some []) 0). split; [split; reflexivity|]. split; [split; reflexivity|].
  destruct (toy_increase false 100 0 0 []) as (old & new & rnd' & e & -> & -> & ->). split; [reflexivity|]. do 2 eexists. split; [reflexivity|]. split; [reflexivity|].
  rewrite mult_INR. pose proof (lt_0_INR 100 ltac:(lia)). rewrite inr2. lra.
Qed.
(** C51 fails for an impossible observation: the log likelihood of the filter is minus infinity, the weight is finite. *)
Theorem C51_impossible_refuted : forall thr d, (thr <= 1 / 2)%R -> exists i g s', world_ok (toy false) g /\
  snd (base_step (toy false) (NESS thr d) i g impossible (St [Fin 0; Fin 0] [(0, Fin 0); (0, Fin 0)] [Fin 2] None 0)) = Ok (Same s') /\
  slot (s_fs s') 0 = Some (1, NInf) /\ slot (s_w s') 0 = Some (Fin (-1000)).
Proof.
  intros thr d Ht. set (g := World [0; 1] [0; 1] 100 0 0). set (s := St _ _ _ _ _). exists inst0, g. cbn [base_step do_update_particles discrete_of].
  assert (D : (existsb (fun e => negb (xeq e (Fin 0))) (s_ess s) && xlt (newest (s_ess s)) (Fin (thr * INR (e_B (toy false))))) || nonfinite (s_w s) = false).
  { unfold nonfinite. cbn. destruct (Req_EM_T 2 0); [lra|]. cbn. destruct (Rlt_dec _ _); [lra|reflexivity]. }
  rewrite D. destruct (absorb_ok (toy false) (toy_ok false) g impossible s) as (_ & e & -> & _); [split; reflexivity|split; reflexivity|]. eexists. split; [split; reflexivity|]. split; [reflexivity|]. split; reflexivity.
Qed.
(** C52: impossible observations never make the weights unusable; here SMC2 is left with a likelihood of zero in every
    slot and does not rejuvenate. *)
Theorem C52_impossible_refuted : exists g s x, world_ok (toy false) g /\ base_step (toy false) (SMC2 smc2_half) inst0 g impossible s = (inst0, tick 1 g, Ok (Same x)) /\ s_fs x = [(1, NInf); (1, NInf)].
Proof.
  set (g := World [0; 1] [0; 1] 100 0 0). exists g. exists (St [Fin 0; Fin 0] [(0, Fin 0); (0, Fin 0)] [] (Some []) 0). cbn [base_step s_data s_w s_fs s_ess s_iter app]. set (s := St _ _ _ _ _).
  destruct (absorb_ok (toy false) (toy_ok false) g impossible s) as (_ & e & -> & _ & Ee); [split; reflexivity|split; reflexivity|]. cbn [s s_ess s_w app newest last s_data s_iter smc2_half c_threshold].
  change (INR (e_B (toy false))) with (1 + 1)%R. replace (1 + 1)%R with 2%R by ring. rewrite (not_below_one e Ee). eexists. split; [split; reflexivity|]. split; reflexivity.
Qed.

(** C52: a callback that asks for the normalised weights (MeanCollector, Standardizer, ParameterPosterior) makes NESS keep
    particles whose weights were unusable: with the callback there is no rejuvenation, without it there is. *)
Lemma ness_unusable cbs : existsb cb_reads cbs = false ->
  g_updates (a_world (fst (fit_alg (toy false) (Plain (NESS (1 / 2) false)) cbs (new_alg 100 0) [0; 1] [0; 1] [nan_at_0; flat]))) = 1.
Proof.
  intros Hr. set (E := toy false). pose proof (toy_ok false) as OK. fold E in OK. unfold fit_alg. destruct (initial_ok E OK (Plain (NESS (1 / 2) false)) (new_alg 100 0) [0; 1] [0; 1] eq_refl eq_refl) as [e Ei].
  pose proof (C52_ess_initial E OK (Plain (NESS (1 / 2) false)) (new_alg 100 0) [0; 1] [0; 1]) as EO. rewrite Ei in *. cbn [snd] in EO. specialize (EO _ eq_refl eq_refl eq_refl). cbn [s_ess] in EO.
  cbn [run fst]. unfold step at 1. cbn [step_ a_first a_world new_alg keeps_data g_np g_rnd g_updates a_second a_switched]. set (g := World _ _ _ _ _). set (s := St _ _ _ _ _).
  cbn [base_step do_update_particles discrete_of]. inversion EO as [_ Fo]. inversion Fo as [|? ? He _]; subst.
  assert (D : (existsb (fun e => negb (xeq e (Fin 0))) (s_ess s) && xlt (newest (s_ess s)) (Fin (1 / 2 * INR (e_B E)))) || nonfinite (s_w s) = false).
  { change (nonfinite (s_w s)) with false. change (newest (s_ess s)) with e. change (INR (e_B E)) with (1 + 1)%R. replace (1 + 1)%R with 2%R by ring. rewrite (not_below_one e He), andb_false_r. reflexivity. }
  rewrite D. destruct (absorb_ok E OK g nan_at_0 s) as (_ & e1 & -> & _ & Ee1); [split; reflexivity|split; reflexivity|]. cbn [bind seen_by_callbacks]. set (s1 := St (map _ _) _ _ _ _).
  pose proof (callbacks_frame E OK cbs nan_at_0 s1) as C. destruct (run_callbacks E cbs nan_at_0 s1) as [calls s2]. destruct C as (_ & _ & _ & _ & _ & _ & C); [split; reflexivity|]. destruct (C Hr) as [-> _].
  unfold step. cbn [step_ a_first a_world base_step do_update_particles discrete_of].
  match goal with |- context [nonfinite ?w] => replace (nonfinite w) with true by reflexivity end. rewrite orb_true_r.
  match goal with |- context [online_update _ _ ?x ?z] => destruct (online_ok E OK false x z) as (p & rows & fs & ctx & _ & _ & _ & _ & _ & _ & _ & Lf & Lc & ->); [split; reflexivity|split; reflexivity|] end.
  match goal with |- context [absorb _ ?x ?z ?t] => destruct (absorb_ok E OK x z t) as (_ & e2 & -> & _); [split; exact Lc|split; [reflexivity|exact Lf]|] end.
  cbn [bind]. destruct (run_callbacks _ _ _ _). reflexivity.
Qed.
Theorem C52_reading_refuted : let reader := [Callback 0 true] in let deaf := [Callback 0 false] in
  let updates cbs := g_updates (a_world (fst (fit_alg (toy false) (Plain (NESS (1 / 2) false)) cbs (new_alg 100 0) [0; 1] [0; 1] [nan_at_0; flat]))) in
  updates deaf = 1 /\ updates reader = 0 /\
  exists s calls, snd (fit_alg (toy false) (Plain (NESS (1 / 2) false)) reader (new_alg 100 0) [0; 1] [0; 1] [nan_at_0]) = Ok (s, calls) /\ exists y t, calls = [(0, y, t)] /\ unusable (s_w t) /\ ~ unusable (s_w s).
Proof.
  cbv zeta. split; [now apply ness_unusable|]. set (E := toy false). pose proof (toy_ok false) as OK. fold E in OK.
  assert (H : exists e e1 g1, ess_entry e /\ ess_entry e1 /\ g_updates g1 = 0 /\ world_ok E g1 /\ exists a1 t, step E (Plain (NESS (1 / 2) false)) [Callback 0 true] (Alg inst0 inst0 false (World [0; 1] [0; 1] 100 1 0)) nan_at_0 (St [Fin 0; Fin 0] [(0, Fin 0); (0, Fin 0)] [e] None 0) =
    (a1, Ok (St [Fin (-1000); Fin (0 + 0)] [(1, NaN); (1, Fin (0 + 0))] [e; e1] None 1, [(0, nan_at_0, t)])) /\ a_world a1 = g1 /\ s_w t = [NInf; Fin (0 + 0)] /\
    initialize_alg E (Plain (NESS (1 / 2) false)) (new_alg 100 0) [0; 1] [0; 1] = (Alg inst0 inst0 false (World [0; 1] [0; 1] 100 1 0), Ok (St [Fin 0; Fin 0] [(0, Fin 0); (0, Fin 0)] [e] None 0))).
  { destruct (initial_ok E OK (Plain (NESS (1 / 2) false)) (new_alg 100 0) [0; 1] [0; 1] eq_refl eq_refl) as [e Ei].
    pose proof (C52_ess_initial E OK (Plain (NESS (1 / 2) false)) (new_alg 100 0) [0; 1] [0; 1]) as EO. rewrite Ei in EO. cbn [snd] in EO. specialize (EO _ eq_refl eq_refl eq_refl). cbn [s_ess] in EO.
    inversion EO as [_ Fo]. inversion Fo as [|? ? He _]; subst. exists e. unfold step. cbn [step_ a_first a_world]. set (g := World _ _ _ _ _). set (s := St _ _ _ _ _). cbn [base_step do_update_particles discrete_of].
    assert (D : (existsb (fun e => negb (xeq e (Fin 0))) (s_ess s) && xlt (newest (s_ess s)) (Fin (1 / 2 * INR (e_B E)))) || nonfinite (s_w s) = false).
    { change (nonfinite (s_w s)) with false. change (newest (s_ess s)) with e. change (INR (e_B E)) with (1 + 1)%R. replace (1 + 1)%R with 2%R by ring. rewrite (not_below_one e He), andb_false_r. reflexivity. }
    rewrite D. destruct (absorb_ok E OK g nan_at_0 s) as (_ & e1 & -> & _ & Ee1); [split; reflexivity|split; reflexivity|]. exists e1. cbn [bind seen_by_callbacks run_callbacks cb_reads cb_id].
    rewrite (read_frame E OK) by (split; reflexivity). eexists. split; [exact He|]. split; [exact Ee1|]. split; [|split; [|do 2 eexists; split; [reflexivity|split; [reflexivity|split; [reflexivity|exact Ei]]]]]; [reflexivity|split; reflexivity]. }
  destruct H as (e & e1 & g1 & He & He1 & Hu & W1 & a1 & t & Es & Ew & Et & Ei). unfold fit_alg. rewrite Ei. cbn [run]. rewrite Es. split.
  - cbn [fst]. unfold step. cbn [step_]. rewrite Ew. cbn [base_step do_update_particles discrete_of]. set (s := St _ _ _ _ _).
    assert (D : (existsb (fun e => negb (xeq e (Fin 0))) (s_ess s) && xlt (newest (s_ess s)) (Fin (1 / 2 * INR (e_B E)))) || nonfinite (s_w s) = false).
    { change (nonfinite (s_w s)) with false. change (newest (s_ess s)) with e1. change (INR (e_B E)) with (1 + 1)%R. replace (1 + 1)%R with 2%R by ring. rewrite (not_below_one e1 He1), andb_false_r. reflexivity. }
    rewrite D. destruct (absorb_ok E OK g1 flat s) as (_ & e2 & -> & _); [exact W1|split; reflexivity|]. cbn [bind]. destruct (run_callbacks _ _ _ _). exact Hu.
  - cbn [snd bind app]. do 2 eexists. split; [reflexivity|]. do 2 eexists. split; [reflexivity|]. rewrite Et. split; [exists NInf; split; [now left|exact I]|].
    intros (x & [<-|[<-|[]]] & []).
Qed.
Example C52_nonvacuous : low_ess (9 / 10) 2 [Fin 2; Fin 1] /\ unusable [NInf; Fin 0] /\ ~ low_ess (1 / 2) 2 [Fin 2] /\ ~ unusable [Fin 0; Fin (-3)] /\ ess_ok [Fin 2; Fin 1].
Proof.
  split; [exists [Fin 2], 1%R; split; [reflexivity|cbn; lra]|]. split; [exists NInf; split; [now left|exact I]|]. split.
  { intros (l & r & Eq & L). destruct l as [|a [|b l]]; cbn in Eq; try discriminate. injection Eq as <-. cbn in L. lra. }
  split; [intros (x & [<-|[<-|[]]] & [])|]. split; [discriminate|]. repeat apply Forall_cons; [| |constructor]; right; eexists; (split; [reflexivity|lra]).
Qed.
Example C51_nonvacuous : exists a s calls e, run (toy false) (Plain (NESS (1 / 2) false)) [] (Alg inst0 inst0 false (World [0; 1] [0; 1] 100 1 0)) [echo] (St [Fin 0; Fin 0] [(0, Fin 0); (0, Fin 0)] [Fin 2] None 0) = (a, Ok (s, calls)) /\
  g_updates (a_world a) = 0 /\ s = St [Fin (0 + 0); Fin (0 + 1)] [(1, Fin (0 + 0)); (1, Fin (0 + 1))] [Fin 2; e] None 1.
Proof.
  cbn [run]. unfold step. cbn [step_ a_first a_world base_step do_update_particles discrete_of]. set (s := St _ _ _ _ _). set (g := World _ _ _ _ _).
  assert (D : (existsb (fun e => negb (xeq e (Fin 0))) (s_ess s) && xlt (newest (s_ess s)) (Fin (1 / 2 * INR (e_B (toy false))))) || nonfinite (s_w s) = false).
  { unfold nonfinite. cbn. destruct (Req_EM_T 2 0); [lra|]. cbn. destruct (Rlt_dec _ _); [lra|reflexivity]. }
  rewrite D. destruct (absorb_ok (toy false) (toy_ok false) g echo s) as (_ & e & -> & _); [split; reflexivity|split; reflexivity|]. do 4 eexists. split; [reflexivity|]. split; reflexivity.
Qed.
Example C54_nonvacuous : exists i g' r, base_step (toy false) (SMC2 smc2_half) inst0 (World [0; 1] [0; 1] 100 0 0) counts_np (St [Fin 0; Fin 0] [(0, Fin 0); (0, Fin 0)] [] (Some []) 0) = (i, g', r) /\ i_increases i = 1 /\ g_np g' = 200.
Proof. destruct (toy_increase false 100 0 0 []) as (old & new & rnd' & e & -> & _ & _). do 3 eexists. split; [reflexivity|]. split; reflexivity. Qed.
Print Assumptions C51_increase_refuted.
Print Assumptions C51_impossible_refuted.
Print Assumptions C52_impossible_refuted.
Print Assumptions C52_reading_refuted.
