(** C88: what collectors record. *)
From Coq Require Import Reals String List Bool Arith Lia Lra.
From Verif.Model Require Import Base Xf Weights Container Pmmh Sequential Collectors.
From Verif.Spec Require Import PmmhSpec SequentialSpec CollectorsSpec.
From Verif.Proofs Require Import ContainerProofs WeightsProofs SequentialProofs SequentialToy CollectorsProofs.
From Verif.Props Require Import WeightsProps PmmhProps SequentialProps SequentialMoves SequentialWeights.
Import ListNotations.
Local Open Scope nat_scope.
Notation length := List.length.

Section Recorded.
  Context {T F Y K : Type} (E : env T F Y K) (OK : env_ok E).
  Notation L := (e_lowest E).

  Lemma step_values c ks a y s recs a' s' recs' : plain_recs recs -> world_ok E (a_world a) -> state_ok E s -> NoDup (map k_name ks) ->
    step_collecting E c ks a y s recs = (a', Ok (s', recs')) ->
    (exists calls, step E c (as_callbacks 0 ks) a y s = (a', Ok (s', calls))) /\ plain_recs recs' /\ world_ok E (a_world a') /\ state_ok E s' /\ g_np (a_world a) <= g_np (a_world a') /\
    forall k, In k ks -> exists v t, recording recs' (k_name k) = recording recs (k_name k) ++ [v] /\ k_fun k (a_world a') y t = Ok v /\ state_ok E t /\
      (0 < g_np (a_world a) -> g_np (a_world a') = g_np (a_world a) -> alike E t s').
  Proof.
    intros P WG WS Nd Es. pose proof (step_frame E OK c (as_callbacks 0 ks) a y s WG WS) as Fr. unfold step_collecting in Es. unfold step in *. rewrite (step_eq E c) in *.
    pose proof (base_step_np E OK (active c a s) (instance c a s) (a_world a) y s WG WS) as Hn. pose proof (base_step_frame E OK (active c a s) (instance c a s) (a_world a) y s WG WS) as Fb.
    destruct (base_step E (active c a s) (instance c a s) (a_world a) y s) as [[i g] r] eqn:Eb. destruct r as [x|e]; cbn [bind] in Es; [|discriminate]. pose proof (base_step_tidy E _ _ _ _ _ _ _ _ Eb) as Tx.
    destruct Fb as (_ & _ & Fs & _). set (a1 := if uses_first c a s then _ else _) in *. assert (Wd : a_world a1 = g) by (unfold a1; destruct (uses_first c a s); reflexivity).
    injection Es as <- Es. destruct (run_collectors E ks (a_world a1) y (seen_by_callbacks x) recs) as [[seen recs1]|e] eqn:Ec; cbn [bind] in Es; [|discriminate]. injection Es as Es <-.
    destruct (run_collectors_values E OK ks 0 _ _ _ _ _ _ P (proj1 Fs) Tx Nd Ec) as (P1 & W1 & A1 & Ecb & _ & Ek).
    destruct (run_callbacks E (as_callbacks 0 ks) y (seen_by_callbacks x)) as [calls seen']. cbn [snd] in Ecb. subst seen'. rewrite <- Es.
    destruct Fr as (F1 & F2 & _). split; [now exists calls|]. split; [exact P1|]. split; [exact F1|]. split; [exact F2|]. split; [rewrite Wd; destruct x; lia|].
    intros k Hk. destruct (Ek k Hk) as (v & t & E1 & E2 & Wt & E3). exists v, t. split; [exact E1|]. split; [exact E2|]. split; [exact Wt|]. rewrite Wd. intros Pn Np. destruct x as [s1|old new]; [|lia]. exact E3.
  Qed.

  Lemma run_values c ks : forall ys a s recs a' s' recs', plain_recs recs -> world_ok E (a_world a) -> state_ok E s -> NoDup (map k_name ks) -> 0 < g_np (a_world a) ->
    run_collecting E c ks a ys s recs = (a', Ok (s', recs')) ->
    (exists calls, run E c (as_callbacks 0 ks) a ys s = (a', Ok (s', calls))) /\
    forall k, In k ks -> recorded_each recs recs' (k_name k) (length ys) (fun i v => exists y a1 s1 a2 s2 t, nth_error ys i = Some y /\
      after E c (as_callbacks 0 ks) a s ys i a1 s1 /\ after E c (as_callbacks 0 ks) a s ys (S i) a2 s2 /\ world_ok E (a_world a2) /\ state_ok E s2 /\
      k_fun k (a_world a2) y t = Ok v /\ state_ok E t /\ (g_np (a_world a2) = g_np (a_world a1) -> alike E t s2)).
  Proof.
    induction ys as [|y ys IH]; intros a s recs a' s' recs' P WG WS Nd Pn; cbn [run_collecting run].
    - intros Eq. injection Eq as <- <- <-. split; [now exists []|]. intros k _. exists []. rewrite app_nil_r. split; [reflexivity|]. split; [reflexivity|]. intros [|i] v; discriminate.
    - destruct (step_collecting E c ks a y s recs) as [a1 x] eqn:Es. destruct x as [[s1 recs1]|e]; [|discriminate]. destruct (step_values _ _ _ _ _ _ _ _ _ P WG WS Nd Es) as ((calls & Ec) & P1 & W1 & S1 & Nn & Ek).
      intros Er. destruct (IH _ _ _ _ _ _ P1 W1 S1 Nd ltac:(lia) Er) as ((more & Em) & Ev). split; [rewrite Ec, Em; cbn [bind]; now eexists|].
      intros k Hk. destruct (Ek k Hk) as (v & t & R1 & R2 & R2' & R3). destruct (Ev k Hk) as (vs & V1 & V2 & V3). exists (v :: vs). split; [rewrite V1, R1, <- app_assoc; reflexivity|]. split; [cbn; now rewrite V2|].
      intros [|i] w; cbn [nth_error].
      + intros Eq. injection Eq as <-. exists y, a, s, a1, s1, t. split; [reflexivity|]. split; [now exists []|]. split; [|auto 10].
        exists calls. cbn [firstn run]. rewrite Ec. cbn [bind]. now rewrite app_nil_r.
      + intros Hw. destruct (V3 i w Hw) as (y' & b1 & t1 & b2 & t2 & t' & N & (c1 & A1) & (c2 & A2) & B). exists y', b1, t1, b2, t2, t'. split; [exact N|].
        split; [exists (calls ++ c1); cbn [firstn run]; rewrite Ec, A1; reflexivity|]. split; [exists (calls ++ c2); rewrite firstn_cons; cbn [run]; rewrite Ec, A2; reflexivity|exact B].
  Qed.

  Lemma normalize_alike w w' : map (nan_to_num L) w = map (nan_to_num L) w' -> normalize L w = normalize L w'.
  Proof. intros H. unfold normalize. destruct w as [|x w], w' as [|x' w']; try discriminate; [reflexivity|]. rewrite H. f_equal. Qed.
  Lemma dot_average (ws : list R) : forall (m : list R) t, length ws = length m -> xsum (zip_with xmul (map (fun r => Fin (exp r / t)) ws) (map Fin m)) = Fin (sum (map (fun p => exp (fst p) * snd p) (combine ws m)) / t)%R.
  Proof.
    unfold zip_with. induction ws as [|r ws IH]; intros [|x m] t Hl; try discriminate; cbn [map combine sum fold_right xsum].
    - f_equal. lra.
    - unfold xsum in IH. cbn [fst snd xmul fold_right]. rewrite (IH m t) by (cbn in Hl; congruence). cbn [xadd sum fold_right]. unfold sum. f_equal. lra.
  Qed.
  Lemma sum_is_rsum l : sum l = WeightsSpec.Rsum l. Proof. reflexivity. Qed.
  (** What [state.normalized_weights() @ rows] is. *)
  Lemma weigh_average t s rows v w m j : state_ok E s -> alike E t s -> weigh E t rows = Ok v -> j < width rows -> s_w s = map Fin w -> column j rows = map Fin m ->
    nth j v NaN = Fin (posterior_average w m).
  Proof.
    intros [S1 _] [_ A] Ew Hj Sw Cj. unfold weigh, normalized_weights in Ew. rewrite (normalize_alike (s_w t) (s_w s) A), Sw in Ew.
    assert (Nw : w <> []). { intros ->. rewrite Sw in S1. cbn in S1. destruct OK as [Hb _]. lia. }
    rewrite (normalize_fin L w Nw) in Ew. cbn [bind] in Ew. unfold matmul in Ew. rewrite map_length in Ew. destruct (length w =? length rows) eqn:El; [|discriminate]. apply Nat.eqb_eq in El. injection Ew as <-.
    rewrite (nth_indep _ NaN (xsum (zip_with xmul (map (fun r => Fin (exp r / WeightsSpec.Rsum (map exp w))) w) (column 0 rows)))) by (rewrite map_length, seq_length; exact Hj).
    rewrite (map_nth (fun j => xsum (zip_with xmul (map (fun r => Fin (exp r / WeightsSpec.Rsum (map exp w))) w) (column j rows)))), (seq_nth _ _ Hj), Nat.add_0_l, Cj, dot_average.
    - reflexivity.
    - apply (f_equal (@length xf)) in Cj. unfold column in Cj. rewrite !map_length in Cj. congruence.
  Qed.
  Lemma weigh_width t rows v : weigh E t rows = Ok v -> length v = width rows.
  Proof. unfold weigh. destruct (normalized_weights E t) as [[p t']|]; cbn [bind]; [|discriminate]. unfold matmul. destruct (_ =? _); [|discriminate]. intros Eq. injection Eq as <-. now rewrite map_length, seq_length. Qed.
  Lemma width_map {A} (f : A -> list xf) l d : (forall x, In x l -> length (f x) = d) -> 0 < length l -> width (map f l) = d.
  Proof. intros H Hl. destruct l as [|x l]; [cbn in Hl; lia|]. apply H. now left. Qed.

  (** A collector that averages numbers of the slots. *)
  Definition averaging (k : collector T F Y) (d : nat) (numbers : Y -> @alg T -> @sstate F Y -> nat -> list xf) : Prop :=
    exists rows : @world T -> Y -> list (F * xf) -> list (list xf), (forall g y t, k_fun k g y t = weigh E t (rows g y (s_fs t))) /\
      (forall g y fs, world_ok E g -> length fs = e_B E -> width (rows g y fs) = d) /\ forall y a s j, column j (rows (a_world a) y (s_fs s)) = numbers y a s j.
  Lemma averaging_recorded c ks a0 drawn placed ys a s recs k d numbers : length drawn = e_B E -> length placed = e_B E -> 0 < g_np (a_world a0) -> NoDup (map k_name ks) -> In k ks ->
    averaging k d numbers -> fit_collecting E c ks a0 drawn placed ys = (a, Ok (s, recs)) ->
    recorded_each empty_container recs (k_name k) (length ys) (averages_at E c (as_callbacks 0 ks) a0 drawn placed ys d numbers).
  Proof.
    intros L1 L2 Pn Nd Hk (rows & H1 & H2 & H3). unfold fit_collecting, averages_at, fitted, fit_alg. destruct (initial_ok E OK c a0 drawn placed L1 L2) as [e ->]. intros Ef.
    assert (P0 : plain_recs empty_container) by (split; [reflexivity|]; intros n q; discriminate).
    set (b0 := Alg _ _ _ _) in *. set (s0 := St _ _ _ _ _) in *.
    assert (W0 : world_ok E (a_world b0)) by (split; assumption). assert (S0 : state_ok E s0) by (split; [apply repeat_length|now apply init_len]).
    destruct (run_values c ks ys b0 s0 _ _ _ _ P0 W0 S0 Nd Pn Ef) as (_ & Hr).
    destruct (Hr k Hk) as (vs & V1 & V2 & V3). exists vs. split; [exact V1|]. split; [exact V2|]. intros i v Hv.
    destruct (V3 i v Hv) as (y & a1 & s1 & a2 & s2 & t & N & (c1 & A1) & (c2 & A2) & W2 & S2 & Kf & Wt & Al). rewrite H1 in Kf.
    assert (Hw : forall fs, length fs = e_B E -> width (rows (a_world a2) y fs) = d) by (intros fs Lf; now apply H2).
    split; [rewrite (weigh_width _ _ _ Kf); apply Hw, Wt|].
    intros y' b1 t1 b2 t2 N' (d1 & B1) (d2 & B2) Np w x j Hj Sw Nx. rewrite A1 in B1. rewrite A2 in B2. injection B1 as <- <- _. injection B2 as <- <- _. rewrite N in N'. injection N' as <-. specialize (Al Np). destruct Al as [Af Aw].
      rewrite Af in Kf. apply (weigh_average t s2 _ v w x j S2 (conj Af Aw) Kf); [rewrite Hw; [exact Hj|apply S2]|exact Sw|]. rewrite H3. exact Nx.
  Qed.

  (** ** C88 *)
  (** MeanCollector: entry [i] is the posterior average of the filter means after observation [i]. *)
  Theorem C88_mean_partial : forall c ks mean d a0 drawn placed ys a s recs, length drawn = e_B E -> length placed = e_B E -> 0 < g_np (a_world a0) -> NoDup (map k_name ks) ->
    (forall f, length (mean f) = d) -> In (mean_collector E mean) ks -> fit_collecting E c ks a0 drawn placed ys = (a, Ok (s, recs)) ->
    recorded_each empty_container recs "filter_means" (length ys)
      (averages_at E c (as_callbacks 0 ks) a0 drawn placed ys d (fun _ _ s j => component j (fun f => mean (fst f)) (s_fs s))).
  Proof.
    intros c ks mean d a0 drawn placed ys a s recs L1 L2 Pn Nd Hd Hk Ef. apply (averaging_recorded c ks a0 drawn placed ys a s recs _ _ _ L1 L2 Pn Nd Hk); [|exact Ef].
    exists (fun _ _ fs => map (fun f => mean (fst f)) fs). split; [reflexivity|]. split.
    - intros _ _ fs _ Lf. apply width_map; [intros; apply Hd|]. rewrite Lf. apply OK.
    - intros _ _ t j. unfold column, component. now rewrite map_map.
  Qed.
  (** ParameterPosterior: the posterior average of the parameters. *)
  Theorem C88_parameters_partial : forall c ks params d a0 drawn placed ys a s recs, length drawn = e_B E -> length placed = e_B E -> 0 < g_np (a_world a0) -> NoDup (map k_name ks) ->
    (forall t, length (params t) = d) -> In (parameter_posterior E params) ks -> fit_collecting E c ks a0 drawn placed ys = (a, Ok (s, recs)) ->
    recorded_each empty_container recs "parameter_means" (length ys)
      (averages_at E c (as_callbacks 0 ks) a0 drawn placed ys d (fun _ a _ j => component j params (g_ctx (a_world a)))).
  Proof.
    intros c ks params d a0 drawn placed ys a s recs L1 L2 Pn Nd Hd Hk Ef. apply (averaging_recorded c ks a0 drawn placed ys a s recs _ _ _ L1 L2 Pn Nd Hk); [|exact Ef].
    exists (fun g _ _ => map params (g_ctx g)). split; [reflexivity|]. split.
    - intros g _ fs [G1 _] _. apply width_map; [intros; apply Hd|]. rewrite G1. apply OK.
    - intros _ b t j. unfold column, component. now rewrite map_map.
  Qed.
  (** Standardizer with a filter that has no state particles: the posterior average of the residuals. *)
  Theorem C88_standardized_partial : forall c ks residual d a0 drawn placed ys a s recs, length drawn = e_B E -> length placed = e_B E -> 0 < g_np (a_world a0) -> NoDup (map k_name ks) ->
    (forall y f, length (residual y f) = d) -> In (standardizer E true residual None) ks -> fit_collecting E c ks a0 drawn placed ys = (a, Ok (s, recs)) ->
    recorded_each empty_container recs "standardized" (length ys)
      (averages_at E c (as_callbacks 0 ks) a0 drawn placed ys d (fun y _ s j => component j (fun f => residual y (fst f)) (s_fs s))).
  Proof.
    intros c ks residual d a0 drawn placed ys a s recs L1 L2 Pn Nd Hd Hk Ef. apply (averaging_recorded c ks a0 drawn placed ys a s recs _ _ _ L1 L2 Pn Nd Hk); [|exact Ef].
    exists (fun _ y fs => map (fun f => residual y (fst f)) fs). split; [reflexivity|]. split.
    - intros _ y fs _ Lf. apply width_map; [intros; apply Hd|]. rewrite Lf. apply OK.
    - intros y _ t j. unfold column, component. now rewrite map_map.
  Qed.

  (** Collectors that cannot fail. *)
  Definition safe (k : collector T F Y) : Prop := (exists mean, k = mean_collector E mean) \/ (exists params, k = parameter_posterior E params) \/ (exists residual, k = standardizer E true residual None).
  Lemma weigh_ok t rows : state_ok E t -> length rows = e_B E -> exists v, weigh E t rows = Ok v.
  Proof.
    intros [S1 S2] Lr. unfold weigh, normalized_weights. destruct (normalize_ok L (s_w t)) as (p & -> & Lp); [apply (len_nonnil _ (e_B E)); [exact S1|apply OK]|]. cbn [bind]. unfold matmul.
    rewrite Lp, S1, Lr, Nat.eqb_refl. now eexists.
  Qed.
  Lemma safe_ok k g y t : safe k -> world_ok E g -> state_ok E t -> exists v, k_fun k g y t = Ok v.
  Proof. intros [(m & ->)|[(m & ->)|(m & ->)]] [G1 G2] St; cbn [k_fun mean_collector parameter_posterior standardizer]; apply weigh_ok; auto; rewrite map_length; [apply St|exact G1|apply St]. Qed.
  Lemma call_ok (k : collector T F Y) g y t recs v : plain_recs recs -> k_fun k g y t = Ok v -> exists recs', call k g y t recs = Ok recs'.
  Proof.
    intros [P1 P2] Ev. unfold call, ccontains. rewrite P1. change (od_mem (k_name k) []) with false. cbn [orb]. destruct (od_mem (k_name k) (c_deques recs)) eqn:Em.
    - cbn [bind]. rewrite Ev. cbn [bind]. unfold append_to. rewrite P1. change (od_mem (k_name k) []) with false. cbv iota. apply od_mem_get in Em. destruct (od_get (k_name k) (c_deques recs)); [now eexists|now contradiction Em].
    - cbn [make_deque make_dequeue bind]. rewrite Ev. cbn [bind]. unfold append_to. cbn [c_tuples c_deques]. rewrite P1. change (od_mem (k_name k) []) with false. cbv iota. rewrite od_get_set. destruct (string_dec (k_name k) (k_name k)) as [_|N]; [now eexists|now contradiction N].
  Qed.
  Lemma run_collectors_ok (ks : list (collector T F Y)) : forall g y t recs, Forall safe ks -> world_ok E g -> state_ok E t -> tidy E (s_w t) -> plain_recs recs -> exists t' recs', run_collectors E ks g y t recs = Ok (t', recs').
  Proof.
    induction ks as [|k ks IH]; intros g y t recs Fs Wg Wt Ti P; cbn [run_collectors]; [now do 2 eexists|]. inversion Fs as [|? ? F1 F2]; subst. destruct (safe_ok k g y t F1 Wg Wt) as [v Ev]. destruct (call_ok k g y t recs v P Ev) as [recs' Ec]. rewrite Ec. cbn [bind].
    destruct (call_plain k g y t recs recs' P Ec) as (P' & _). assert (H : state_ok E (if k_reads k then read_weights E t else t) /\ tidy E (s_w (if k_reads k then read_weights E t else t))) by (destruct (k_reads k); [destruct (read_alike E OK t Wt Ti) as (_ & ?)|]; auto).
    apply IH; tauto.
  Qed.
  (** Collectors do not get in the way: a run with them ends with the state a run with such callbacks ends with; the
      three above without a particle filter never fail. *)
  Theorem C88_undisturbed : forall c ks a0 drawn placed ys a s recs, length drawn = e_B E -> length placed = e_B E -> 0 < g_np (a_world a0) -> NoDup (map k_name ks) ->
    fit_collecting E c ks a0 drawn placed ys = (a, Ok (s, recs)) -> exists calls, fit_alg E c (as_callbacks 0 ks) a0 drawn placed ys = (a, Ok (s, calls)).
  Proof.
    intros c ks a0 drawn placed ys a s recs L1 L2 Pn Nd. unfold fit_collecting, fit_alg. destruct (initial_ok E OK c a0 drawn placed L1 L2) as [e ->]. intros Ef.
    assert (P0 : plain_recs empty_container) by (split; [reflexivity|]; intros n q; discriminate). set (b0 := Alg _ _ _ _) in *. set (s0 := St _ _ _ _ _) in *.
    assert (W0 : world_ok E (a_world b0)) by (split; assumption). assert (S0 : state_ok E s0) by (split; [apply repeat_length|now apply init_len]).
    exact (proj1 (run_values c ks ys b0 s0 _ _ _ _ P0 W0 S0 Nd Pn Ef)).
  Qed.
  Theorem C88_safe : forall c ks a0 drawn placed ys a s calls, length drawn = e_B E -> length placed = e_B E -> 0 < g_np (a_world a0) -> NoDup (map k_name ks) -> Forall safe ks ->
    fit_alg E c (as_callbacks 0 ks) a0 drawn placed ys = (a, Ok (s, calls)) -> exists recs, fit_collecting E c ks a0 drawn placed ys = (a, Ok (s, recs)).
  Proof.
    intros c ks a0 drawn placed ys a s calls L1 L2 Pn Nd Fs. unfold fit_collecting, fit_alg. destruct (initial_ok E OK c a0 drawn placed L1 L2) as [e ->].
    assert (P0 : plain_recs empty_container) by (split; [reflexivity|]; intros n q; discriminate). set (b0 := Alg _ _ _ _) in *. set (s0 := St _ _ _ _ _) in *.
    assert (W0 : world_ok E (a_world b0)) by (split; assumption). assert (S0 : state_ok E s0) by (split; [apply repeat_length|now apply init_len]).
    clearbody b0 s0. revert calls b0 s0 W0 S0 P0. generalize (@empty_container (list xf)). clear Pn L1 L2. induction ys as [|y ys IH]; intros recs0 calls b0 s0 W0 S0 P0; cbn [run run_collecting].
    - intros Eq. injection Eq as <- <- _. now eexists.
    - destruct (step E c (as_callbacks 0 ks) b0 y s0) as [a1 x] eqn:Es. destruct x as [[s1 cl]|]; [|discriminate]. destruct (run E c (as_callbacks 0 ks) a1 ys s1) as [a2 x] eqn:Er. destruct x as [[s2 more]|]; cbn [bind]; [|discriminate].
      intros Eq. injection Eq as -> -> _.
      assert (Hs : exists recs1, step_collecting E c ks b0 y s0 recs0 = (a1, Ok (s1, recs1))).
      { unfold step_collecting. pose proof Es as Es'. unfold step in Es'. rewrite (step_eq E c) in *. pose proof (base_step_frame E OK (active c b0 s0) (instance c b0 s0) (a_world b0) y s0 W0 S0) as Fb.
        destruct (base_step E (active c b0 s0) (instance c b0 s0) (a_world b0) y s0) as [[i g] r] eqn:Eb. destruct r as [x|e']; [|discriminate]. destruct Fb as (Wg & _ & Fq & _). pose proof (base_step_tidy E _ _ _ _ _ _ _ _ Eb) as Tx.
        set (a' := if uses_first c b0 s0 then _ else _) in *. assert (Wd : a_world a' = g) by (unfold a'; destruct (uses_first c b0 s0); reflexivity). cbn [bind]. rewrite Wd.
        destruct (run_collectors_ok ks g y (seen_by_callbacks x) recs0 Fs Wg (proj1 Fq) Tx P0) as (t' & recs1 & Ec). rewrite Ec. cbn [bind].
        destruct (run_collectors_values E OK ks 0 _ _ _ _ _ _ P0 (proj1 Fq) Tx Nd Ec) as (_ & _ & _ & Et & _). destruct (run_callbacks E (as_callbacks 0 ks) y (seen_by_callbacks x)) as [cl' seen]. cbn [snd] in Et. subst seen.
        injection Es' as <- <- _. now exists recs1. }
      destruct Hs as [recs1 Hs]. rewrite Hs. destruct (step_values c ks b0 y s0 recs0 a1 s1 recs1 P0 W0 S0 Nd Hs) as (_ & P1 & W1 & S1 & _). exact (IH recs1 more a1 s1 W1 S1 P1 Er).
  Qed.

  (** Standardizer with a particle filter: unless there are as many state particles as parameter particles, every [fit] on at
      least one observation fails. *)
  Lemma normalize_all_ok ws N : 0 < N -> Forall (fun w => length w = N) ws -> exists ps, normalize_all E ws = Ok ps /\ length ps = length ws /\ Forall (fun p => length p = N) ps.
  Proof.
    intros Hn. induction ws as [|w ws IH]; intros H; cbn [normalize_all]; [now exists []|]. inversion H as [|? ? H1 H2]; subst. destruct (normalize_ok L w) as (p & -> & Lp); [now apply (len_nonnil _ (length w))|]. destruct (IH H2) as (ps & -> & Lq & Fq).
    cbn [bind]. exists (p :: ps). split; [reflexivity|]. split; [cbn; congruence|]. now constructor.
  Qed.
  Lemma standardizer_raises residual log_w N g y t : 0 < N -> N <> e_B E -> (forall f, length (log_w f) = N) -> (forall f, length (residual y f) = N) -> state_ok E t ->
    k_fun (standardizer E true residual (Some log_w)) g y t = Raise RuntimeError.
  Proof.
    intros Hn Hb Hw Hr [S1 S2]. cbn [k_fun standardizer]. destruct (normalize_all_ok (map (fun f : F * xf => log_w (fst f)) (s_fs t)) N Hn) as (ps & -> & Lp & Fp); [apply Forall_map, Forall_forall; intros; apply Hw|]. cbn [bind].
    set (pr := zip_with _ ps _). assert (Wp : width pr = N).
    { unfold pr, zip_with. rewrite map_length in Lp. destruct (s_fs t) as [|f fs]; [cbn in S2; destruct OK as [? _]; lia|]. destruct ps as [|p ps]; [discriminate|]. inversion Fp as [|? ? Hp _]; subst. cbn [map combine width fst snd]. rewrite map_length, combine_length, Hr. lia. }
    rewrite Wp. unfold weigh, normalized_weights. destruct (normalize_ok L (s_w t)) as (p & -> & Lq); [apply (len_nonnil _ (e_B E)); [exact S1|apply OK]|]. cbn [bind]. unfold matmul. rewrite Lq, S1, map_length, seq_length.
    destruct (e_B E =? N) eqn:Eq; [apply Nat.eqb_eq in Eq; congruence|reflexivity].
  Qed.
  Theorem C88_standardizer_refuted : forall c ks residual log_w N a0 drawn placed y ys, length drawn = e_B E -> length placed = e_B E -> 0 < g_np (a_world a0) -> NoDup (map k_name ks) ->
    0 < N -> N <> e_B E -> (forall f, length (log_w f) = N) -> (forall y f, length (residual y f) = N) -> In (standardizer E true residual (Some log_w)) ks ->
    exists a e, fit_collecting E c ks a0 drawn placed (y :: ys) = (a, Raise e).
  Proof.
    intros c ks residual log_w N a0 drawn placed y ys L1 L2 Pn Nd Hn Hb Hw Hr Hk. unfold fit_collecting. destruct (initial_ok E OK c a0 drawn placed L1 L2) as [e ->].
    assert (P0 : plain_recs empty_container) by (split; [reflexivity|]; intros n q; discriminate). set (b0 := Alg _ _ _ _) in *. set (s0 := St _ _ _ _ _) in *.
    assert (W0 : world_ok E (a_world b0)) by (split; assumption). assert (S0 : state_ok E s0) by (split; [apply repeat_length|now apply init_len]).
    cbn [run_collecting]. destruct (step_collecting E c ks b0 y s0 empty_container) as [a1 x] eqn:Es. destruct x as [[s1 recs1]|e']; [|now do 2 eexists]. exfalso.
    destruct (step_values c ks b0 y s0 _ a1 s1 recs1 P0 W0 S0 Nd Es) as (_ & _ & _ & _ & _ & Ek). destruct (Ek _ Hk) as (v & t & _ & Ev & Wt & _). rewrite (standardizer_raises residual log_w N) in Ev; auto. discriminate.
  Qed.
End Recorded.

(** ** Witnesses *)
(** Two parameter particles; the latest state of a filter is its parameter; an observation tells the log likelihood for a number
    of state particles and a parameter; resampling keeps the slots; every proposal is [7; 8]. *)
Definition keeping : env nat nat (nat -> nat -> xf) unit :=
  Env nat nat (nat -> nat -> xf) unit (-1000)%R 2
    (fun r np b built now => now) (fun r np b built now y f => (now, y np now))
    (fun r w => [0; 1]) (fun r rows w idx => map (fun i => nth i rows 0) idx) (fun r => [true; true])
    (fun rows w fs => tt) (fun k rows => map (fun _ => Fin 0) rows) (fun k k' m => tt) (fun r k => [7; 8]) (fun r => [1 / 2; 1 / 2]%R) (fun t => Fin 0) (fun a b => 0%R).
Lemma keeping_ok : env_ok keeping.
Proof.
  unfold env_ok. cbn. split; [lia|]. split; [intros; split; [reflexivity|repeat constructor]|]. split; [intros r rows w idx _ Hl; now rewrite map_length|].
  split; [reflexivity|]. split; [reflexivity|]. split; [intros k rows; apply map_length|reflexivity].
Qed.
(** Three times as likely under parameter 0 as under parameter 1; impossible under 7 and 8. *)
Definition favours_0 : nat -> nat -> xf := fun np theta => if theta =? 0 then Fin 0 else if 7 <=? theta then NInf else Fin (- ln 3).
Definition number (n : nat) : list xf := [Fin (INR n)].

Lemma ln3 : exp (- ln 3) = (1 / 3)%R.
Proof. rewrite exp_Ropp, exp_ln by lra. lra. Qed.
Definition first_state (e : list xf) : @sstate nat (nat -> nat -> xf) := St [Fin (0 + 0); Fin (0 + - ln 3)] [(0, Fin (0 + 0)); (1, Fin (0 + - ln 3))] e None 0.
Lemma ness_one ks : exists a e, fit_collecting keeping (Plain (NESS (1 / 2) false)) ks (new_alg 100 0) [0; 1] [0; 1] [favours_0] =
    (a, let! (seen, recs) := run_collectors keeping ks (a_world a) favours_0 (first_state e) empty_container in Ok (bump_iteration seen, recs)) /\ g_ctx (a_world a) = [0; 1] /\ g_np (a_world a) = 100.
Proof.
  set (E := keeping). pose proof keeping_ok as OK. fold E in OK. unfold fit_collecting. pose proof (C52_ess_initial E OK (Plain (NESS (1 / 2) false)) (new_alg 100 0) [0; 1] [0; 1]) as Ei.
  destruct (initial_ok E OK (Plain (NESS (1 / 2) false)) (new_alg 100 0) [0; 1] [0; 1] eq_refl eq_refl) as [e Eq]. rewrite Eq in *. cbn [snd] in Ei. specialize (Ei _ eq_refl eq_refl eq_refl). cbn [s_ess] in Ei. destruct Ei as [_ Fe]. inversion Fe as [|? ? He _]; subst.
  cbn [run_collecting]. unfold step_collecting. cbn [step_ a_first a_world new_alg keeps_data g_np g_rnd g_updates a_second a_switched base_step do_update_particles s_ess newest last].
  assert (Nb : xlt e (Fin (1 / 2 * INR (e_B E))) = false) by (change (INR (e_B E)) with (1 + 1)%R; replace (1 + 1)%R with 2%R by ring; now apply not_below_one). rewrite Nb, andb_false_r.
  match goal with |- context [nonfinite ?w] => replace (nonfinite w) with false by reflexivity end. cbn [orb]. set (g := World _ _ _ _ _). set (s := St _ _ _ _ _).
  destruct (absorb_ok E OK g favours_0 s) as (_ & e1 & -> & _ & _); [split; reflexivity|split; reflexivity|]. cbn [bind].
  exists (Alg inst0 inst0 false (World [0; 1] [0; 1] 100 2 0)), [e; e1]. split; [|split; reflexivity].
  match goal with |- context [run_collectors _ _ _ _ (seen_by_callbacks (Same ?t)) _] => change t with (first_state [e; e1]) end.
  change (Alg inst0 inst0 false (tick 1 g)) with (Alg inst0 inst0 false (World [0; 1] [0; 1] 100 2 0)).
  cbn [bind seen_by_callbacks a_world]. destruct (run_collectors _ _ _ _ _ _) as [[seen recs]|]; reflexivity.
Qed.
Lemma two_weights x y : x = 0%R -> y = (- ln 3)%R -> map (fun r => Fin (exp r / WeightsSpec.Rsum (map exp [x; y]))) [x; y] = [Fin (3 / 4); Fin (1 / 4)].
Proof. intros -> ->. cbn. rewrite exp_0, ln3. f_equal; [f_equal; field|]. do 2 f_equal. field. Qed.
Lemma weigh_first (s : @sstate nat (nat -> nat -> xf)) rows : s_w s = [Fin (0 + 0); Fin (0 + - ln 3)] -> weigh keeping s rows = matmul [Fin (3 / 4); Fin (1 / 4)] rows.
Proof.
  intros Es. unfold weigh, normalized_weights. rewrite Es. change [Fin (0 + 0); Fin (0 + - ln 3)] with (map Fin [0 + 0; 0 + - ln 3]%R). rewrite normalize_fin by discriminate. cbn [bind]. now rewrite two_weights by lra.
Qed.
Lemma read_first (s : @sstate nat (nat -> nat -> xf)) : s_w s = [Fin (0 + 0); Fin (0 + - ln 3)] -> read_weights keeping s = with_w [Fin (0 + 0); Fin (0 + - ln 3)] s.
Proof. intros Es. unfold read_weights, normalized_weights. rewrite Es. reflexivity. Qed.
Lemma average_first : posterior_average [0 + 0; 0 + - ln 3]%R [INR 0; INR 1] = (1 / 4)%R.
Proof. unfold posterior_average. cbn. rewrite !Rplus_0_l, exp_0, ln3. field. Qed.

Lemma matmul_first : matmul [Fin (3 / 4); Fin (1 / 4)] [number 0; number 1] = Ok [Fin (1 / 4)].
Proof. cbn. do 3 f_equal. field. Qed.

(** One observation and both averages: a quarter. *)
Example C88_nonvacuous : exists a s recs, fit_collecting keeping (Plain (NESS (1 / 2) false)) [mean_collector keeping number; parameter_posterior keeping number] (new_alg 100 0) [0; 1] [0; 1] [favours_0] = (a, Ok (s, recs)) /\
  recording recs "filter_means" = [[Fin (1 / 4)]] /\ recording recs "parameter_means" = [[Fin (1 / 4)]] /\
  s_w s = map Fin [0 + 0; 0 + - ln 3]%R /\ component 0 (fun f => number (fst f)) (s_fs s) = map Fin [INR 0; INR 1] /\ posterior_average [0 + 0; 0 + - ln 3]%R [INR 0; INR 1] = (1 / 4)%R.
Proof.
  destruct (ness_one [mean_collector keeping number; parameter_posterior keeping number]) as (a & e & -> & Eg & _). exists a. cbn [run_collectors]. unfold call at 1. cbn [k_fun k_reads k_name mean_collector].
  rewrite (weigh_first (first_state e)) by reflexivity. cbn [s_fs first_state map fst]. rewrite matmul_first. rewrite !(read_first (first_state e)) by reflexivity. unfold call. cbn [k_fun k_reads k_name parameter_posterior].
  rewrite !weigh_first, !read_first, Eg by reflexivity. cbn [map]. rewrite matmul_first. cbn. do 2 eexists. split; [reflexivity|]. repeat split. apply average_first.
Qed.

(** Standardizer, as many state particles as parameter particles: two equally weighted state particles with residuals 1 and 1
    under parameter 0, 3 and 5 under parameter 1.  The posterior average of the filters' average residuals is 7/4, recorded
    is 9/4. *)
Definition residuals : (nat -> nat -> xf) -> nat -> list xf := fun _ f => if f =? 0 then [Fin 1; Fin 1] else [Fin 3; Fin 5].
Definition even_weights : nat -> list xf := fun _ => [Fin 0; Fin 0].
Theorem C88_standardizer_value_refuted : exists a s recs, fit_collecting keeping (Plain (NESS (1 / 2) false)) [standardizer keeping true residuals (Some even_weights)] (new_alg 100 0) [0; 1] [0; 1] [favours_0] = (a, Ok (s, recs)) /\
  recording recs "standardized" = [[Fin (9 / 4)]] /\ s_w s = map Fin [0 + 0; 0 + - ln 3]%R /\ map fst (s_fs s) = [0; 1] /\
  posterior_average [0 + 0; 0 + - ln 3]%R [posterior_average [0; 0]%R [1; 1]%R; posterior_average [0; 0]%R [3; 5]%R] = (7 / 4)%R.
Proof.
  destruct (ness_one [standardizer keeping true residuals (Some even_weights)]) as (a & e & -> & _). exists a. cbn [run_collectors]. unfold call. cbn [k_fun k_reads k_name standardizer].
  assert (Hn : normalize_all keeping [even_weights 0; even_weights 1] = Ok [[Fin (1 / 2); Fin (1 / 2)]; [Fin (1 / 2); Fin (1 / 2)]]).
  { unfold normalize_all, even_weights. change [Fin 0; Fin 0] with (map Fin [0%R; 0%R]). rewrite !normalize_fin by discriminate. cbn. rewrite exp_0. replace (1 / (1 + (1 + 0)))%R with (1 / 2)%R by field. reflexivity. }
  rewrite !(read_first (first_state e)) by reflexivity. cbn [s_fs first_state map fst]. rewrite Hn. cbn [bind].
  match goal with |- context [weigh keeping _ ?r] => replace r with [[Fin 2]; [Fin 3]] end.
  2:{ cbn. f_equal; [|f_equal]; do 2 f_equal; field. }
  rewrite weigh_first by reflexivity. assert (M : matmul [Fin (3 / 4); Fin (1 / 4)] [[Fin 2]; [Fin 3]] = Ok [Fin (9 / 4)]) by (cbn; do 3 f_equal; field). rewrite M.
  cbn. do 2 eexists. split; [reflexivity|]. repeat split. unfold posterior_average. cbn. rewrite !Rplus_0_l, exp_0, ln3. field.
Qed.

(** SMC2 with a threshold of 9/10 of the particles. *)
Definition smc2_often : smc2_cfg := Smc2Cfg (fun _ => 9 / 10)%R 1 (1 / 5)%R 5 None.
Lemma keeping_pstep np rnd k x y : pstep keeping np [favours_0] rnd k [0; 1] [(0, Fin x); (1, Fin y)] = (Chains [0; 1] [(0, Fin x); (1, Fin y)] k, [false; false]).
Proof.
  pose proof (proj1 (proj2 (xlog_below_one (1 / 2) half_ok))) as X. unfold pstep, run_pmmh.
  assert (B : batch_filter keeping (rnd + 1) np [7; 8] [7; 8] [favours_0] = [(7, NInf); (8, NInf)]) by reflexivity.
  change (e_sample keeping rnd k) with [7; 8]. rewrite B. unfold zip_with. cbn [map combine snd fst results positions kern keeping e_uniforms e_log_prior e_log_prob xsub xopp xadd].
  rewrite X. destruct k. reflexivity.
Qed.
(** The first observation favours parameter 0, all proposals are rejected, the state particles are doubled.  The state has even
    weights then: both averages are one half, recorded is a quarter. *)
Theorem C88_increase_refuted : exists a s recs, fit_collecting keeping (Plain (SMC2 smc2_often)) [mean_collector keeping number; parameter_posterior keeping number] (new_alg 100 0) [0; 1] [0; 1] [favours_0] = (a, Ok (s, recs)) /\
  recording recs "filter_means" = [[Fin (1 / 4)]] /\ recording recs "parameter_means" = [[Fin (1 / 4)]] /\ g_np (a_world a) = 200 /\ g_ctx (a_world a) = [0; 1] /\
  map fst (s_fs s) = [0; 1] /\ exists w, s_w s = map Fin w /\ posterior_average w [INR 0; INR 1] = (1 / 2)%R.
Proof.
  set (E := keeping). pose proof keeping_ok as OK. fold E in OK. unfold fit_collecting. destruct (initial_ok E OK (Plain (SMC2 smc2_often)) (new_alg 100 0) [0; 1] [0; 1] eq_refl eq_refl) as [e ->].
  cbn [run_collecting]. unfold step_collecting. cbn [step_ a_first a_world new_alg keeps_data g_np g_rnd g_updates a_second a_switched base_step s_data s_w s_fs s_ess s_iter app].
  set (g := World _ _ _ _ _). set (s0 := St _ _ _ _ _).
  destruct (absorb_ok E OK g favours_0 s0) as (_ & e1 & -> & Ee & _); [split; reflexivity|split; reflexivity|].
  assert (Ec : corrections E (g_rnd g) (g_np g) (g_model g) (g_ctx g) favours_0 (s_fs s0) = [(0, Fin 0); (1, Fin (- ln 3))]) by reflexivity.
  rewrite Ec in *. unfold zip_with, append_result, zip_with in *. cbn [s0 s_w s_fs s_ess s_data s_iter repeat E keeping e_B map snd combine xadd nan_to_num fst app] in *.
  change [Fin (0 + 0); Fin (0 + - ln 3)] with (map Fin [0 + 0; 0 + - ln 3]%R) in Ee. unfold get_ess in Ee. rewrite normalize_fin in Ee by discriminate. cbn [bind] in Ee. rewrite two_weights in Ee by lra. injection Ee as Ee.
  assert (E1 : e1 = Fin (8 / 5)). { rewrite <- Ee. cbn. destruct (Req_EM_T _ _) as [Z|_]; [exfalso; lra|]. f_equal. field. } rewrite E1. clear E1 Ee.
  set (s1 := St _ _ _ _ _).
  match goal with |- context [xlt ?x ?y] => assert (Lt : xlt x y = true) end.
  { cbn. destruct (Rlt_dec _ _) as [_|N]; [reflexivity|]. exfalso. apply N. lra. }
  rewrite Lt. cbn [orb]. clear Lt.
  destruct (pmmh_ok E OK smc2_often 0 (tick 1 g) s1 [favours_0]) as (p & idx & rows & fs & _ & -> & _ & _ & Er & Ef & _ & _ & M); [split; reflexivity|split; reflexivity|reflexivity|].
  cbn in Er, Ef. injection Er as <-. injection Ef as <-. cbn [smc2_often c_steps] in M. rewrite moves_unfold in M.
  assert (Ep : pstep E (g_np (tick 1 g)) [favours_0] (g_rnd (tick 1 g) + 2) (e_build E (g_ctx (tick 1 g)) (map (nan_to_num (e_lowest E)) (s_w s1)) (s_fs s1)) [0; 1] [(0, Fin (0 + 0)); (1, Fin (0 + - ln 3))] =
    (Chains [0; 1] [(0, Fin (0 + 0)); (1, Fin (0 + - ln 3))] tt, [false; false])) by apply keeping_pstep.
  rewrite Ep in M. cbv zeta in M. assert (Rt : ((accepted_fraction [false; false] + INR 0 * 0) / INR 1 < c_accept smc2_often)%R) by (unfold accepted_fraction; cbn; lra).
  destruct (Rlt_dec _ _) as [_|N]; [|contradiction]. clear Rt. destruct M as (M1 & M2 & M3). cbn [i_increases inst0 i_blocks]. rewrite M3. clear M3. cbn [positions results] in *.
  unfold increase_states. cbn [smc2_often c_max Nat.ltb Nat.leb g_np g_ctx g_rnd tick g].
  set (fs := batch_filter _ _ _ _ _ _). assert (Efs : fs = [(0, Fin (0 + 0)); (1, Fin (0 + - ln 3))]) by reflexivity. rewrite Efs.
  cbn [s_fs]. unfold zip_with. cbn [map combine fst snd xsub xopp xadd]. unfold new_state. match goal with |- context [get_ess ?l ?w false] => destruct (get_ess_ok l w) as [e' ->]; [discriminate|] end.
  cbn [bind s_w map nan_to_num seen_by_callbacks a_world]. set (old := St _ _ _ _ _). change E with keeping.
  cbn [run_collectors]. unfold call at 1. cbn [k_fun k_reads k_name mean_collector].
  rewrite (weigh_first old) by reflexivity. cbn [s_fs old map fst]. rewrite matmul_first. rewrite !(read_first old) by reflexivity. unfold call. cbn [k_fun k_reads k_name parameter_posterior].
  rewrite !weigh_first, !read_first by reflexivity. cbn [map g_ctx]. rewrite matmul_first. cbn. do 3 eexists. split; [reflexivity|]. repeat split. eexists [_; _]. split; [reflexivity|].
  unfold posterior_average. cbn. replace (0 + - ln 3 + - (0 + - ln 3))%R with 0%R by ring. replace (0 + 0 + - (0 + 0))%R with 0%R by ring. rewrite exp_0. field.
Qed.
Print Assumptions C88_mean_partial.
Print Assumptions C88_parameters_partial.
Print Assumptions C88_standardized_partial.
Print Assumptions C88_undisturbed.
Print Assumptions C88_safe.
Print Assumptions C88_standardizer_refuted.
Print Assumptions C88_standardizer_value_refuted.
Print Assumptions C88_increase_refuted.
