(** Interrupting and resuming a run (C58). *)
From Coq Require Import Reals List Bool Arith Lia Lra.
From Verif.Model Require Import Base Xf Weights Pmmh Sequential.
From Verif.Spec Require Import PmmhSpec SequentialSpec.
From Verif.Proofs Require Import WeightsProofs SequentialProofs SequentialToy.
From Verif.Props Require Import WeightsProps PmmhProps SequentialProps SequentialMoves SequentialWeights SequentialDispatch.
Import ListNotations.
Local Open Scope nat_scope.

Section Resume.
  Context {T F Y K : Type} (E : env T F Y K) (OK : env_ok E).
  Notation B := (e_B E).

  (** ** Giving the data in two parts *)
  Lemma run_app c cbs : forall xs ys a s, run E c cbs a (xs ++ ys) s =
    match run E c cbs a xs s with
    | (a1, Raise e) => (a1, Raise e)
    | (a1, Ok (s1, calls1)) => let (a2, r) := run E c cbs a1 ys s1 in (a2, let! (s2, calls2) := r in Ok (s2, calls1 ++ calls2))
    end.
  Proof.
    induction xs as [|x xs IH]; intros ys a s; cbn [run app].
    - destruct (run E c cbs a ys s) as [a2 [[s2 c2]|e]]; reflexivity.
    - destruct (step E c cbs a x s) as [a1 [[s1 c1]|e]]; [|reflexivity]. rewrite IH. destruct (run E c cbs a1 xs s1) as [a2 [[s2 c2]|e]]; [|reflexivity]. cbn [bind].
      destruct (run E c cbs a2 ys s2) as [a3 [[s3 c3]|e]]; cbn [bind]; [|reflexivity]. now rewrite app_assoc.
  Qed.
  (** C58, without saving: fitting all the data is fitting a part and then taking in the rest one by one. *)
  Theorem C58_continue : forall c cbs a0 drawn placed xs ys a1 s1 calls1, fit_alg E c cbs a0 drawn placed xs = (a1, Ok (s1, calls1)) ->
    fit_alg E c cbs a0 drawn placed (xs ++ ys) = let (a2, r) := run E c cbs a1 ys s1 in (a2, let! (s2, calls2) := r in Ok (s2, calls1 ++ calls2)).
  Proof.
    intros c cbs a0 drawn placed xs ys a1 s1 calls1. unfold fit_alg. destruct (initialize_alg E c a0 drawn placed) as [a [s|e]]; [|discriminate]. intros H. rewrite run_app, H. reflexivity.
  Qed.

  (** ** Two algorithms that cannot be told apart *)
  Definition same_world (g g' : @world T) : Prop := world_ok E g /\ world_ok E g' /\ g_ctx g = g_ctx g' /\ g_np g = g_np g' /\ g_rnd g = g_rnd g'.
  Definition same_inst (b : base) (i i' : inst) : Prop :=
    match b with NESS _ _ => True | FixedWidthNESS bl _ => i_blocks i mod bl = i_blocks i' mod bl | SMC2 _ => i_increases i = i_increases i' end.

  Lemma zero_mod bl : 0 mod bl = 0.
  Proof. destruct bl; [reflexivity|]. now apply Nat.mod_0_l. Qed.
  Lemma succ_mod bl m n : m mod bl = n mod bl -> S m mod bl = S n mod bl.
  Proof.
    destruct bl as [|bl]; [cbn; congruence|]. intros H. rewrite <- (Nat.add_1_r m), <- (Nat.add_1_r n), (Nat.add_mod m), (Nat.add_mod n), H by lia. reflexivity.
  Qed.

  Context (Live : live E).
  Lemma corrections_live rnd np built built' now y fs : List.length built = B -> List.length built' = B -> List.length now = B -> List.length fs = B ->
    corrections E rnd np built now y fs = corrections E rnd np built' now y fs.
  Proof.
    intros L1 L2 L3 L4. apply list_ext. intros b. destruct (Nat.lt_ge_cases b B) as [Hb|Hb].
    - destruct (nth_some built b ltac:(lia)) as [t Et]. destruct (nth_some built' b ltac:(lia)) as [t' Et']. destruct (nth_some now b ltac:(lia)) as [u Eu]. destruct (nth_some fs b ltac:(lia)) as [f Ef].
      rewrite (corrections_nth E rnd np built now y fs b t u f), (corrections_nth E rnd np built' now y fs b t' u f) by (auto; lia). f_equal. apply Live.
    - rewrite !(proj2 (nth_error_None _ _)); [reflexivity| |]; rewrite corrections_len; auto.
  Qed.
  Lemma absorb_same g g' y s : same_world g g' -> state_ok E s -> snd (absorb E g y s) = snd (absorb E g' y s) /\ same_world (fst (absorb E g y s)) (fst (absorb E g' y s)).
  Proof.
    intros ((W1 & W1') & (W2 & W2') & Ec & En & Er) [S1 S2]. unfold absorb. cbn [fst snd]. rewrite <- Ec, <- En, <- Er. rewrite (corrections_live (g_rnd g) (g_np g) (g_model g) (g_model g')) by auto. split; [reflexivity|].
    repeat split; auto. cbn. now rewrite Er.
  Qed.
  Lemma online_same d g g' s : same_world g g' -> state_ok E s -> snd (online_update E d g s) = snd (online_update E d g' s) /\ same_world (fst (online_update E d g s)) (fst (online_update E d g' s)).
  Proof.
    intros (W1 & W2 & Ec & En & Er) WS. destruct (online_ok E OK d g s W1 WS) as (p & rows & fs & ctx & E1 & E2 & E3 & _ & _ & E4 & _ & _ & Lc & E5). destruct (online_ok E OK d g' s W2 WS) as (p' & rows' & fs' & ctx' & E1' & E2' & E3' & _ & _ & E4' & _ & _ & Lc' & E5').
    rewrite E1 in E1'. injection E1' as <-. rewrite <- Ec, <- Er in *. rewrite E2 in E2'. injection E2' as <-. rewrite E3 in E3'. injection E3' as <-. rewrite E5, E5'. cbn [fst snd]. split; [reflexivity|].
    subst ctx ctx'. repeat split; auto. 
  Qed.
  Lemma increase_same c n g g' data s : same_world g g' -> state_ok E s ->
    let '(m, g1, r) := increase_states E c n g data s in let '(m', g1', r') := increase_states E c n g' data s in m = m' /\ r = r' /\ same_world g1 g1'.
  Proof.
    intros (W1 & W2 & Ec & En & Er) WS. destruct (increase_ok E OK c n g data s W1 WS) as [I1 I2]. destruct (increase_ok E OK c n g' data s W2 WS) as [I1' I2']. destruct (Nat.lt_ge_cases n (c_max c)) as [Q|Q].
    - destruct (I2 Q) as (_ & _ & ->). destruct (I2' Q) as (_ & _ & ->). rewrite <- Ec, <- Er, <- En. split; [reflexivity|]. split; [reflexivity|]. repeat split; cbn; auto; apply W1.
    - rewrite (I1 Q), (I1' Q). split; [reflexivity|]. split; [reflexivity|]. exact (conj W1 (conj W2 (conj Ec (conj En Er)))).
  Qed.
  Lemma pmmh_same c n g g' s data : same_world g g' -> state_ok E s -> s_data s = Some data ->
    let '(m, g1, r) := pmmh_update E c n g s in let '(m', g1', r') := pmmh_update E c n g' s in m = m' /\ r = r' /\ same_world g1 g1'.
  Proof.
    intros (W1 & W2 & Ec & En & Er) WS Sd. destruct (pmmh_ok E OK c n g s data W1 WS Sd) as (p & idx & rows & fs & E1 & E2 & _ & _ & E3 & E4 & _ & _ & M). destruct (pmmh_ok E OK c n g' s data W2 WS Sd) as (p' & idx' & rows' & fs' & E1' & E2' & _ & _ & E3' & E4' & _ & _ & M').
    rewrite E1 in E1'. injection E1' as <-. subst idx idx'. rewrite <- Ec, <- Er, <- En in *. rewrite E3 in E3'. injection E3' as <-. rewrite E4 in E4'. injection E4' as <-.
    destruct (pmmh_moves _ _ _ _ _ _ _ _ _ _ _ _ _) as [[[[ctx fs'] rnd] accs] low]. destruct M as (L1 & L2 & ->). destruct M' as (_ & _ & ->). destruct low.
    - apply increase_same; [|split; [cbn; rewrite map_length; apply WS|exact L2]]. repeat split; cbn; auto; [apply W1|apply W2].
    - split; [reflexivity|]. split; [reflexivity|]. repeat split; auto.
  Qed.
  Lemma base_step_same b i i' g g' y s : same_world g g' -> same_inst b i i' -> state_ok E s ->
    let '(j, h, r) := base_step E b i g y s in let '(j', h', r') := base_step E b i' g' y s in r = r' /\ same_inst b j j' /\ same_world h h'.
  Proof.
    intros SW SI WS.
    assert (Online : match b with SMC2 _ => False | _ => True end -> let '(j, h, r) := base_step E b i g y s in let '(j', h', r') := base_step E b i' g' y s in r = r' /\ same_inst b j j' /\ same_world h h').
    { intros NS.
      assert (Eq : forall i g, base_step E b i g y s =
        let (i', update) := do_update_particles E b i s in
        let (g1, r) := if update then online_update E (discrete_of b) g s else (g, Ok s) in
        match r with Raise e => (i', g1, Raise e) | Ok s1 => let (g2, r2) := absorb E g1 y s1 in (i', g2, let! s2 := r2 in Ok (Same s2)) end) by (intros; destruct b; [reflexivity|reflexivity|contradiction]).
      rewrite !Eq. clear Eq.
      assert (Du : snd (do_update_particles E b i s) = snd (do_update_particles E b i' s) /\ same_inst b (fst (do_update_particles E b i s)) (fst (do_update_particles E b i' s))).
      { destruct b as [thr d|bl d|c]; cbn [do_update_particles same_inst fst snd i_blocks] in *; [split; [reflexivity|exact I]| |contradiction]. rewrite (succ_mod bl _ _ SI). split; reflexivity. }
      destruct (do_update_particles E b i s) as [j u]. destruct (do_update_particles E b i' s) as [j' u']. cbn [fst snd] in Du. destruct Du as [<- Sj].
      assert (Mid : exists s1, state_ok E s1 /\ exists g1 g1', (if u then online_update E (discrete_of b) g s else (g, Ok s)) = (g1, Ok s1) /\ (if u then online_update E (discrete_of b) g' s else (g', Ok s)) = (g1', Ok s1) /\ same_world g1 g1').
      { destruct u; [|exists s; split; [exact WS|]; exists g, g'; auto]. destruct (online_same (discrete_of b) g g' s SW WS) as [O1 O2].
        destruct (online_ok E OK (discrete_of b) g s (proj1 SW) WS) as (p & rows & fs & ctx & _ & _ & _ & _ & _ & _ & _ & Lf & _ & Eo). rewrite Eo in *. cbn [fst snd] in *. eexists. split; [|do 2 eexists; split; [reflexivity|]; split; [|exact O2]].
        - split; [cbn; unfold zeros; rewrite map_length; apply WS|exact Lf].
        - rewrite O1. apply surjective_pairing. }
      destruct Mid as (s1 & W1 & g1 & g1' & -> & -> & S1). destruct (absorb_same g1 g1' y s1 S1 W1) as [A1 A2]. destruct (absorb E g1 y s1) as [h r]. destruct (absorb E g1' y s1) as [h' r']. cbn [fst snd] in *. subst r'. auto. }
    destruct b as [thr d|bl d|c]; [exact (Online I)|exact (Online I)|]. clear Online. cbn [base_step same_inst] in *. destruct (s_data s) as [data|]; [|auto].
    set (s0 := St _ _ _ _ _). assert (W0 : state_ok E s0) by exact WS. destruct (absorb_same g g' y s0 SW W0) as [A1 A2]. destruct (absorb_ok E OK g y s0 (proj1 SW) W0) as (Lc & e & Ea & _). rewrite Ea in *.
    destruct (absorb E g' y s0) as [h' r']. cbn [fst snd] in *. subst r'. set (s1 := St (map _ _) _ _ _ _). assert (W1 : state_ok E s1) by exact (absorb_state_ok E s0 e _ Lc W0).
    destruct (_ || _); [|split; [reflexivity|split; [exact SI|exact A2]]]. rewrite <- SI. pose proof (pmmh_same c (i_increases i) (tick 1 g) h' s1 _ A2 W1 eq_refl) as P.
    destruct (pmmh_update E c (i_increases i) (tick 1 g) s1) as [[m h] r]. destruct (pmmh_update E c (i_increases i) h' s1) as [[m' h''] r']. destruct P as (-> & -> & P). auto.
  Qed.

  Definition same_alg (c : cfg) (n : nat) (a a' : @alg T) : Prop :=
    same_world (a_world a) (a_world a') /\ switch_ok c a n /\ switch_ok c a' n /\
    match c with
    | Plain b => same_inst b (a_first a) (a_first a')
    | Combined b1 b2 sw => (n <= sw -> same_inst b1 (a_first a) (a_first a')) /\ same_inst b2 (a_second a) (a_second a')
    end.
  Lemma uses_first_at c (a : @alg T) (s : @sstate F Y) : switch_ok c a (s_iter s) -> uses_first c a s = match c with Plain _ => true | Combined _ _ sw => s_iter s <=? sw end.
  Proof.
    destruct c as [b|b1 b2 sw]; cbn; [reflexivity|]. intros H. destruct (a_switched a); cbn; [|reflexivity]. symmetry. apply Nat.leb_gt. auto.
  Qed.
  Lemma step_same c cbs a a' y s : same_alg c (s_iter s) a a' -> state_ok E s ->
    let (b, r) := step E c cbs a y s in let (b', r') := step E c cbs a' y s in r = r' /\ (forall x, r = Ok x -> same_alg c (S (s_iter s)) b b').
  Proof.
    intros (SW & O1 & O2 & SI) WS. pose proof (step_frame E OK c cbs a y s (proj1 SW) WS) as F1. pose proof (step_frame E OK c cbs a' y s (proj1 (proj2 SW)) WS) as F2. unfold step in *. rewrite !(step_eq E c) in *.
    rewrite (active_at c a s O1), (active_at c a' s O2) in *. unfold instance in *. rewrite (uses_first_at c a s O1), (uses_first_at c a' s O2) in *.
    set (uf := match c with Plain _ => true | Combined _ _ sw => s_iter s <=? sw end) in *.
    assert (Si : same_inst (base_at c (s_iter s)) (if uf then a_first a else a_second a) (if uf then a_first a' else a_second a')).
    { unfold uf. destruct c as [b|b1 b2 sw]; cbn [base_at]; [exact SI|]. destruct (Nat.leb_spec (s_iter s) sw); [now apply SI|apply SI]. }
    pose proof (base_step_same (base_at c (s_iter s)) _ _ (a_world a) (a_world a') y s SW Si WS) as H. destruct (base_step E _ _ (a_world a) y s) as [[j h] r]. destruct (base_step E _ _ (a_world a') y s) as [[j' h'] r']. destruct H as (<- & Sj & Sh).
    destruct r as [x|e]; [|split; [reflexivity|discriminate]]. destruct (run_callbacks E cbs y (seen_by_callbacks x)) as [cl seen]. split; [reflexivity|]. intros _ _.
    split; [destruct uf; exact Sh|]. split; [|split].
    - destruct c as [b|b1 b2 sw]; [exact I|]. unfold uf in *. cbn in *. destruct (Nat.leb_spec (s_iter s) sw); cbn; [intros Q; specialize (O1 Q); lia|intros _; lia].
    - destruct c as [b|b1 b2 sw]; [exact I|]. unfold uf in *. cbn in *. destruct (Nat.leb_spec (s_iter s) sw); cbn; [intros Q; specialize (O2 Q); lia|intros _; lia].
    - destruct c as [b|b1 b2 sw]; unfold uf in *; cbn [base_at] in *; [exact Sj|]. destruct (Nat.leb_spec (s_iter s) sw); cbn [a_first a_second]; (split; [intros Q|]); auto; try apply SI; lia.
  Qed.
  Lemma run_same c cbs : forall ys a a' s, same_alg c (s_iter s) a a' -> state_ok E s ->
    let (b, r) := run E c cbs a ys s in let (b', r') := run E c cbs a' ys s in r = r' /\ (forall x, r = Ok x -> same_world (a_world b) (a_world b')).
  Proof.
    induction ys as [|y ys IH]; intros a a' s SA WS; cbn [run]; [split; [reflexivity|]; intros _ _; apply SA|].
    pose proof (step_same c cbs a a' y s SA WS) as H. pose proof (step_frame E OK c cbs a y s (proj1 (proj1 SA)) WS) as Fr. destruct (step E c cbs a y s) as [b r]. destruct (step E c cbs a' y s) as [b' r']. destruct H as [<- H].
    destruct r as [[s1 c1]|e]; [|split; [reflexivity|discriminate]]. destruct Fr as (_ & W1 & It & _). specialize (H _ eq_refl). rewrite <- It in H. specialize (IH b b' s1 H W1).
    destruct (run E c cbs b ys s1) as [a2 r2]. destruct (run E c cbs b' ys s1) as [a2' r2']. destruct IH as [<- IH]. split; [reflexivity|]. intros x Ex. destruct r2 as [z|]; [|discriminate]. now apply (IH z).
  Qed.

  (** ** What an algorithm remembers outside its state *)
  (** Number of observations the first and the second algorithm have seen after [n]. *)
  Definition seen_by_first (c : cfg) (n : nat) : nat := match c with Plain _ => n | Combined _ _ sw => Nat.min n (S sw) end.
  Definition seen_by_second (c : cfg) (n : nat) : nat := n - seen_by_first c n.
  (** An instance of FixedWidthNESS that is still in use is at the end of a block. *)
  Definition block_complete (b : base) (n : nat) : Prop := match b with FixedWidthNESS bl _ => n mod bl = 0 | _ => True end.
  Definition blocks_complete (c : cfg) (n : nat) : Prop :=
    match c with
    | Plain b => block_complete b n
    | Combined b1 b2 sw => (n <= sw -> block_complete b1 n) /\ block_complete b2 (n - S sw)
    end.
  Lemma base_step_blocks b i g y s : let '(i', _, r) := base_step E b i g y s in forall x, r = Ok x -> i_blocks i' = i_blocks i + match b with FixedWidthNESS _ _ => 1 | _ => 0 end.
  Proof.
    destruct b as [thr d|bl d|c]; cbn [base_step do_update_particles].
    - destruct (if (_ || _) then _ else _) as [g1 r]. destruct r as [s1|]; [|discriminate]. destruct (absorb E g1 y s1) as [g2 r2]. intros _ _. lia.
    - destruct (if (_ || _) then _ else _) as [g1 r]. destruct r as [s1|]; [|discriminate]. destruct (absorb E g1 y s1) as [g2 r2]. intros _ _. cbn. lia.
    - destruct (s_data s) as [d|]; [|discriminate]. destruct (absorb E g y _) as [g1 r]. destruct r as [s1|]; [|discriminate]. destruct (_ || _); [|intros; lia].
      destruct (pmmh_update E c (i_increases i) g1 s1) as [[n g2] r2]. intros _ _. cbn. lia.
  Qed.
  Definition step_of (b : base) : nat := match b with FixedWidthNESS _ _ => 1 | _ => 0 end.
  Definition first_of (c : cfg) : base := match c with Plain b => b | Combined b _ _ => b end.
  Definition second_of (c : cfg) : base := match c with Plain b => b | Combined _ b _ => b end.
  Definition counted (c : cfg) (n : nat) (a : @alg T) : Prop :=
    i_blocks (a_first a) = step_of (first_of c) * seen_by_first c n /\ i_blocks (a_second a) = step_of (second_of c) * seen_by_second c n.
  Lemma run_blocks c cbs : forall ys a s a' s' calls, world_ok E (a_world a) -> state_ok E s -> switch_ok c a (s_iter s) -> counted c (s_iter s) a ->
    run E c cbs a ys s = (a', Ok (s', calls)) -> counted c (s_iter s') a'.
  Proof.
    induction ys as [|y ys IH]; intros a s a' s' calls WG WS SO C Er; cbn [run] in Er; [injection Er as <- <- _; exact C|].
    pose proof (step_frame E OK c cbs a y s WG WS) as Fr. destruct (step E c cbs a y s) as [a1 r1] eqn:Es. destruct r1 as [[s1 c1]|]; [|discriminate].
    destruct Fr as (A1 & A2 & A3 & _ & _ & _ & _ & A8). destruct (run E c cbs a1 ys s1) as [a2 r2] eqn:Er1. destruct r2 as [[s2 c2]|]; [|discriminate]. cbn in Er. injection Er as -> -> _.
    refine (IH _ _ _ _ _ A1 A2 _ _ Er1); [rewrite A3; now apply (switch_next c a s)|]. rewrite A3.
    unfold step in Es. rewrite (step_eq E c), (active_at c a s SO) in Es. unfold instance in Es. rewrite (uses_first_at c a s SO) in Es.
    pose proof (base_step_blocks (base_at c (s_iter s)) (if match c with Plain _ => true | Combined _ _ sw => s_iter s <=? sw end then a_first a else a_second a) (a_world a) y s) as H.
    destruct (base_step E _ _ (a_world a) y s) as [[i g] r]. destruct r as [x|]; [|discriminate]. specialize (H x eq_refl). destruct (run_callbacks E cbs y (seen_by_callbacks x)). injection Es as <- _ _.
    destruct C as [C1 C2]. unfold counted, seen_by_second. fold (step_of (base_at c (s_iter s))) in H. destruct c as [b|b1 b2 sw]; cbn [first_of second_of seen_by_first base_at a_first a_second] in *.
    - split; [rewrite H, C1; lia|]. rewrite C2. unfold seen_by_second. cbn. lia.
    - unfold seen_by_second in C2. cbn [seen_by_first] in C2. destruct (Nat.leb_spec (s_iter s) sw); cbn [a_first a_second]; (split; [rewrite ?H, ?C1|rewrite ?H, ?C2]).
      + replace (Nat.min (S (s_iter s)) (S sw)) with (S (s_iter s)) by lia. replace (Nat.min (s_iter s) (S sw)) with (s_iter s) by lia. lia.
      + f_equal. lia.
      + f_equal. lia.
      + replace (S (s_iter s) - Nat.min (S (s_iter s)) (S sw)) with (S (s_iter s - Nat.min (s_iter s) (S sw))) by lia. lia.
  Qed.

  (** C58.  A run can be stopped, saved and taken up again in a new process if no state particles have been added, no block of
      a FixedWidthNESS is under way, and the model holds the parameters themselves. *)
  Theorem C58_partial : forall c cbs np rnd drawn placed drawn' xs ys a1 s1 calls1, compatible c -> List.length drawn = B -> List.length placed = B -> List.length drawn' = B -> 0 < np ->
    fit_alg E c cbs (new_alg np rnd) drawn placed xs = (a1, Ok (s1, calls1)) -> g_np (a_world a1) = np -> blocks_complete c (List.length xs) ->
    let (a2, r) := fit_alg E c cbs (new_alg np rnd) drawn placed (xs ++ ys) in
    let (a2', r') := resume E c cbs np (g_rnd (a_world a1)) drawn' (save a1 s1) ys in
    match r with
    | Ok (s2, calls) => exists calls2, r' = Ok (s2, calls2) /\ calls = calls1 ++ calls2 /\ g_ctx (a_world a2') = g_ctx (a_world a2)
    | Raise e => r' = Raise e
    end.
  Proof.
    intros c cbs np rnd drawn placed drawn' xs ys a1 s1 calls1 Co L1 L2 L3 Pn Ef Np Bc. rewrite (C58_continue c cbs _ drawn placed xs ys a1 s1 calls1 Ef). unfold resume.
    destruct (initial_ok E OK c (new_alg np 0) drawn' drawn' L3 L3) as [e' ->]. cbn [load save fst snd].
    destruct (reached E OK c cbs (new_alg np rnd) drawn placed xs a1 s1 calls1 Co L1 L2 eq_refl Ef) as (WG & WS & It & SO & _).
    set (a1' := at_position _ _).
    assert (Cn : counted c (s_iter s1) a1 /\ i_increases (a_first a1) + i_increases (a_second a1) = 0).
    { unfold fit_alg in Ef. pose proof (C54_doubling E OK c cbs np rnd drawn placed xs L1 L2) as Db. unfold fit_alg in Db. destruct (initial_ok E OK c (new_alg np rnd) drawn placed L1 L2) as [e Ei]. rewrite Ei in *. split.
      - refine (run_blocks c cbs xs _ _ _ _ _ _ _ _ _ Ef); [split; assumption|split; [apply repeat_length|now apply init_len]|destruct c; cbn; [exact I|discriminate]|].
        unfold counted, seen_by_second. cbn. destruct c; cbn; lia.
      - rewrite Ef in Db. destruct Db as (k1 & k2 & _ & _ & D3 & D4). destruct (D4 _ eq_refl) as [-> ->]. rewrite Np in D3. destruct (k1 + k2) as [|k] eqn:Ek; [reflexivity|]. exfalso. cbn in D3. pose proof (Nat.pow_nonzero 2 k ltac:(lia)). nia. }
    destruct Cn as [[C1 C2] Ci].
    assert (SA : same_alg c (s_iter s1) a1 a1').
    { unfold a1'. split; [|split; [exact SO|split; [destruct c; cbn; [exact I|discriminate]|]]].
      - split; [exact WG|]. split; [split; [apply WG|exact L3]|]. cbn. auto.
      - cbn [at_position new_alg a_first a_second]. rewrite It in *. destruct c as [b|b1 b2 sw]; cbn [first_of second_of seen_by_first blocks_complete] in *.
        + destruct b as [thr d|bl d|cc]; cbn [same_inst inst0 i_blocks i_increases block_complete step_of] in *; [exact I| |lia]. rewrite C1, Nat.mul_1_l, Bc. now rewrite zero_mod.
        + unfold seen_by_second in C2. cbn [seen_by_first] in C2. destruct Bc as [B1 B2]. split.
          * intros Q. specialize (B1 Q). destruct b1 as [thr d|bl d|cc]; cbn [same_inst inst0 i_blocks i_increases block_complete step_of] in *; [exact I| |lia]. rewrite C1, Nat.mul_1_l. replace (Nat.min (List.length xs) (S sw)) with (List.length xs) by lia. rewrite B1. now rewrite zero_mod.
          * destruct b2 as [thr d|bl d|cc]; cbn [same_inst inst0 i_blocks i_increases block_complete step_of] in *; [exact I| |lia]. rewrite C2, Nat.mul_1_l. replace (List.length xs - Nat.min (List.length xs) (S sw)) with (List.length xs - S sw) by lia. rewrite B2. now rewrite zero_mod. }
    pose proof (run_same c cbs ys a1 a1' s1 SA WS) as H. destruct (run E c cbs a1 ys s1) as [a2 r]. destruct (run E c cbs a1' ys s1) as [a2' r']. destruct H as [<- H].
    destruct r as [[s2 calls2]|e]; cbn [bind]; [|reflexivity]. exists calls2. split; [reflexivity|]. split; [reflexivity|]. symmetry. apply (H _ eq_refl).
  Qed.
End Resume.

Section Steps.
  Context {T F Y K : Type} (E : env T F Y K) (OK : env_ok E).
  Notation B := (e_B E).
  Definition taken_in (g : @world T) (y : Y) (s : @sstate F Y) (data : option (list Y)) (e : xf) : @sstate F Y :=
    let c := corrections E (g_rnd g) (g_np g) (g_model g) (g_ctx g) y (s_fs s) in
    St (map (nan_to_num (e_lowest E)) (zip_with xadd (s_w s) (map snd c))) (append_result (s_fs s) c) (s_ess s ++ [e]) data (S (s_iter s)).
  Lemma fixed_quiet bl d a y s : world_ok E (a_world a) -> state_ok E s -> (S (i_blocks (a_first a)) mod bl =? 0) = false -> nonfinite (s_w s) = false ->
    exists e, step E (Plain (FixedWidthNESS bl d)) [] a y s = (Alg (Inst (S (i_blocks (a_first a))) (i_increases (a_first a))) (a_second a) (a_switched a) (tick 1 (a_world a)), Ok (taken_in (a_world a) y s (s_data s) e, [])).
  Proof.
    intros WG WS Q1 Q2. unfold step. cbn [step_ base_step do_update_particles i_blocks]. rewrite Q1, Q2. cbn [orb]. destruct (absorb_ok E OK (a_world a) y s WG WS) as (_ & e & -> & _). exists e. reflexivity.
  Qed.
  Lemma fixed_update bl d a y s : world_ok E (a_world a) -> state_ok E s -> (S (i_blocks (a_first a)) mod bl =? 0) = true ->
    exists g1 s1 e, online_update E d (a_world a) s = (g1, Ok s1) /\
    step E (Plain (FixedWidthNESS bl d)) [] a y s = (Alg (Inst (S (i_blocks (a_first a))) (i_increases (a_first a))) (a_second a) (a_switched a) (tick 1 g1), Ok (taken_in g1 y s1 (s_data s1) e, [])).
  Proof.
    intros WG WS Q. unfold step. cbn [step_ base_step do_update_particles i_blocks discrete_of]. rewrite Q. cbn [orb].
    destruct (online_ok E OK d (a_world a) s WG WS) as (p & rows & fs & ctx & _ & _ & _ & _ & _ & _ & _ & Lf & Lc & ->). set (g1 := World _ _ _ _ _). set (s1 := St _ _ _ _ _).
    destruct (absorb_ok E OK g1 y s1) as (_ & e & -> & _); [split; exact Lc|split; [cbn; unfold zeros; rewrite map_length; apply WS|exact Lf]|]. exists g1, s1, e. split; reflexivity.
  Qed.
  Lemma smc2_quiet c a y s data : world_ok E (a_world a) -> state_ok E s -> s_data s = Some data -> (forall e, ess_entry e -> xlt e (Fin (c_threshold c (List.length (s_ess s)) * INR B)) = false) ->
    (forall e, nonfinite (s_w (taken_in (a_world a) y s None e)) = false) ->
    exists e, step E (Plain (SMC2 c)) [] a y s = (Alg (a_first a) (a_second a) (a_switched a) (tick 1 (a_world a)), Ok (taken_in (a_world a) y s (Some (data ++ [y])) e, [])).
  Proof.
    intros WG WS Sd Q1 Q2. unfold step. cbn [step_ base_step]. rewrite Sd. set (s0 := St _ _ _ _ _). destruct (absorb_ok E OK (a_world a) y s0 WG WS) as (_ & e & -> & _ & Ee). cbn [s0 s_ess s_w s_fs s_data s_iter]. unfold newest.
    rewrite last_last, app_length. replace (List.length (s_ess s) + List.length [e] - 1) with (List.length (s_ess s)) by (cbn; lia). rewrite (Q1 e Ee). specialize (Q2 e). cbn [taken_in s_w] in Q2. rewrite Q2. cbn [orb]. exists e. reflexivity.
  Qed.
End Steps.

Lemma toy_live : live (toy false).
Proof. intros ?; reflexivity. Qed.

(** C58 fails for FixedWidthNESS: the place within the block is not saved.  Blocks of two observations, stopped after the
    first: the uninterrupted run rejuvenates at the second, the resumed one does not. *)
Theorem C58_blocks_refuted : exists a1 s1 calls1 a2 s2 calls2 a3 s3 calls3, env_ok (toy false) /\ live (toy false) /\
  fit_alg (toy false) (Plain (FixedWidthNESS 2 false)) [] (new_alg 100 0) [0; 1] [0; 1] [flat] = (a1, Ok (s1, calls1)) /\
  fit_alg (toy false) (Plain (FixedWidthNESS 2 false)) [] (new_alg 100 0) [0; 1] [0; 1] [flat; flat] = (a2, Ok (s2, calls2)) /\
  resume (toy false) (Plain (FixedWidthNESS 2 false)) [] 100 (g_rnd (a_world a1)) [0; 1] (save a1 s1) [flat] = (a3, Ok (s3, calls3)) /\
  g_ctx (a_world a2) = [2; 2] /\ g_ctx (a_world a3) = [0; 1].
Proof.
  set (E := toy false). pose proof (toy_ok false) as OK. fold E in OK.
  assert (Ef : exists e1 e2, fit_alg E (Plain (FixedWidthNESS 2 false)) [] (new_alg 100 0) [0; 1] [0; 1] [flat] =
    (Alg (Inst 1 0) inst0 false (World [0; 1] [0; 1] 100 2 0), Ok (St [Fin (0 + 0); Fin (0 + 0)] [(1, Fin (0 + 0)); (1, Fin (0 + 0))] [e1; e2] None 1, []))).
  { unfold fit_alg. destruct (initial_ok E OK (Plain (FixedWidthNESS 2 false)) (new_alg 100 0) [0; 1] [0; 1] eq_refl eq_refl) as [e ->]. cbn [run].
    match goal with |- context [step E _ [] ?a ?y ?s] => destruct (fixed_quiet E OK 2 false a y s) as [e1 ->]; [split; reflexivity|split; reflexivity|reflexivity|reflexivity|] end. exists e, e1. reflexivity. }
  destruct Ef as (e1 & e2 & Ef). set (a1 := Alg _ _ _ _) in Ef. set (s1 := St _ _ _ _ _) in Ef.
  assert (E2 : exists a2 s2 calls2, run E (Plain (FixedWidthNESS 2 false)) [] a1 [flat] s1 = (a2, Ok (s2, calls2)) /\ g_ctx (a_world a2) = [2; 2]).
  { cbn [run]. destruct (fixed_update E OK 2 false a1 flat s1) as (g1 & s2 & e & Eo & ->); [split; reflexivity|split; reflexivity|reflexivity|]. do 3 eexists. split; [reflexivity|]. cbn [a_world tick g_ctx].
    destruct (online_ok E OK false (a_world a1) s1) as (p & rows & fs & ctx & _ & _ & _ & _ & _ & Ec & _ & _ & _ & Eo'); [split; reflexivity|split; reflexivity|]. rewrite Eo' in Eo. injection Eo as <- _. cbn [g_ctx]. rewrite Ec. reflexivity. }
  destruct E2 as (a2 & s2 & calls2 & E2 & C2).
  assert (E3 : exists a3 s3 calls3, resume E (Plain (FixedWidthNESS 2 false)) [] 100 (g_rnd (a_world a1)) [0; 1] (save a1 s1) [flat] = (a3, Ok (s3, calls3)) /\ g_ctx (a_world a3) = [0; 1]).
  { unfold resume. destruct (initial_ok E OK (Plain (FixedWidthNESS 2 false)) (new_alg 100 0) [0; 1] [0; 1] eq_refl eq_refl) as [e ->]. cbn [load save fst snd run].
    match goal with |- context [step E _ [] ?a ?y ?s] => destruct (fixed_quiet E OK 2 false a y s) as [e3 ->]; [split; reflexivity|split; reflexivity|reflexivity|reflexivity|] end. do 3 eexists. split; reflexivity. }
  destruct E3 as (a3 & s3 & calls3 & E3 & C3). exists a1, s1, [], a2, s2, calls2, a3, s3, calls3. split; [exact OK|]. split; [exact toy_live|]. split; [exact Ef|]. split; [|split; [exact E3|split; [exact C2|exact C3]]].
  change [flat; flat] with ([flat] ++ [flat]). rewrite (C58_continue E _ _ _ _ _ _ _ _ _ _ Ef), E2. reflexivity.
Qed.

Definition per_state : nat -> nat -> xf := fun np theta => Fin (INR np).
(** C58 fails for SMC2 after an increase: the number of state particles is not saved.  The uninterrupted run takes in the
    second observation with 200 state particles, the resumed one with 100. *)
Theorem C58_increase_refuted : exists a1 s1 calls1 a2 s2 calls2 a3 s3 calls3, env_ok (toy false) /\ live (toy false) /\
  fit_alg (toy false) (Plain (SMC2 smc2_half)) [] (new_alg 100 0) [0; 1] [0; 1] [counts_np] = (a1, Ok (s1, calls1)) /\
  fit_alg (toy false) (Plain (SMC2 smc2_half)) [] (new_alg 100 0) [0; 1] [0; 1] [counts_np; per_state] = (a2, Ok (s2, calls2)) /\
  resume (toy false) (Plain (SMC2 smc2_half)) [] 100 (g_rnd (a_world a1)) [0; 1] (save a1 s1) [per_state] = (a3, Ok (s3, calls3)) /\
  map snd (s_fs s2) = [Fin 400; Fin 400] /\ map snd (s_fs s3) = [Fin 300; Fin 300].
Proof.
  set (E := toy false). pose proof (toy_ok false) as OK. fold E in OK.
  assert (Ef : exists rnd es, List.length es = 2 /\ fit_alg E (Plain (SMC2 smc2_half)) [] (new_alg 100 0) [0; 1] [0; 1] [counts_np] =
    (Alg (Inst 0 1) inst0 false (World [1; 1] [1; 1] 200 rnd 1), Ok (St [Fin 100; Fin 100] [(1, Fin 200); (1, Fin 200)] es (Some [counts_np]) 1, []))).
  { unfold fit_alg. destruct (initial_ok E OK (Plain (SMC2 smc2_half)) (new_alg 100 0) [0; 1] [0; 1] eq_refl eq_refl) as [e ->]. cbn [run]. unfold step. cbn [step_ a_first a_world new_alg g_np g_rnd g_updates keeps_data a_second a_switched].
    change (repeat (Fin 0) (e_B E)) with [Fin 0; Fin 0]. change (init_result E 0 100 [0; 1] [0; 1]) with [(0, Fin 0); (0, Fin 0)].
    destruct (toy_increase false 100 1 0 [e]) as (old & new & rnd' & e' & Eb & -> & ->). fold E in Eb. rewrite Eb. cbn [run_callbacks seen_by_callbacks bump_iteration s_w s_fs s_ess s_data s_iter bind app].
    exists rnd', [e; e']. split; [reflexivity|]. rewrite mult_INR, !Rplus_0_l, inr2. replace (INR 100) with 100%R by (rewrite INR_IZR_INZ; reflexivity). replace (100 * 2)%R with 200%R by ring. replace (200 + - (100))%R with 100%R by ring. reflexivity. }
  destruct Ef as (rnd & es & Le & Ef). set (a1 := Alg _ _ _ _) in Ef. set (s1 := St _ _ _ _ _) in Ef.
  assert (Q : forall n e, ess_entry e -> xlt e (Fin (c_threshold smc2_half n * INR (e_B E))) = false).
  { intros n e He. change (INR (e_B E)) with (1 + 1)%R. replace (1 + 1)%R with 2%R by ring. exact (not_below_one e He). }
  assert (N1 : INR 100 = 100%R) by (rewrite INR_IZR_INZ; reflexivity). assert (N2 : INR 200 = 200%R) by (rewrite INR_IZR_INZ; reflexivity).
  assert (E2 : exists a2 s2 calls2, run E (Plain (SMC2 smc2_half)) [] a1 [per_state] s1 = (a2, Ok (s2, calls2)) /\ map snd (s_fs s2) = [Fin 400; Fin 400]).
  { cbn [run]. destruct (smc2_quiet E OK smc2_half a1 per_state s1 [counts_np]) as [e ->]; [split; reflexivity|split; reflexivity|reflexivity|apply Q|reflexivity|]. do 3 eexists. split; [reflexivity|].
    unfold taken_in. change (corrections E (g_rnd (a_world a1)) (g_np (a_world a1)) (g_model (a_world a1)) (g_ctx (a_world a1)) per_state (s_fs s1)) with [(2, Fin (INR 200)); (2, Fin (INR 200))].
    rewrite N2. cbn [s_fs s1 append_result zip_with combine map fst snd xadd]. replace (200 + 200)%R with 400%R by ring. reflexivity. }
  destruct E2 as (a2 & s2 & calls2 & E2 & C2).
  assert (E3 : exists a3 s3 calls3, resume E (Plain (SMC2 smc2_half)) [] 100 (g_rnd (a_world a1)) [0; 1] (save a1 s1) [per_state] = (a3, Ok (s3, calls3)) /\ map snd (s_fs s3) = [Fin 300; Fin 300]).
  { unfold resume. destruct (initial_ok E OK (Plain (SMC2 smc2_half)) (new_alg 100 0) [0; 1] [0; 1] eq_refl eq_refl) as [e ->]. cbn [load save fst snd run].
    match goal with |- context [step E _ [] ?a ?y ?s] => destruct (smc2_quiet E OK smc2_half a y s [counts_np]) as [e3 ->]; [split; reflexivity|split; reflexivity|reflexivity|apply Q|reflexivity|] end. do 3 eexists. split; [reflexivity|].
    unfold taken_in. match goal with |- context [corrections ?a ?b ?c ?d ?e ?f ?g] => change (corrections a b c d e f g) with [(2, Fin (INR 100)); (2, Fin (INR 100))] end.
    rewrite N1. cbn [s_fs s1 append_result zip_with combine map fst snd xadd]. replace (200 + 100)%R with 300%R by ring. reflexivity. }
  destruct E3 as (a3 & s3 & calls3 & E3 & C3). exists a1, s1, [], a2, s2, calls2, a3, s3, calls3. split; [exact OK|]. split; [exact toy_live|]. split; [exact Ef|]. split; [|split; [exact E3|split; [exact C2|exact C3]]].
  change [counts_np; per_state] with ([counts_np] ++ [per_state]). rewrite (C58_continue E _ _ _ _ _ _ _ _ _ _ Ef), E2. reflexivity.
Qed.

(** C58 fails for models that compute with their parameters: loading does not build the model again.  Parameters 1 and 2; the
    resumed run goes on with a model of the parameters 3 and 4 drawn by the new context. *)
Theorem C58_model_refuted : exists a1 s1 calls1 a2 s2 calls2 a3 s3 calls3, env_ok (toy true) /\
  fit_alg (toy true) (Plain (SMC2 smc2_half)) [] (new_alg 100 0) [1; 2] [1; 2] [flat] = (a1, Ok (s1, calls1)) /\
  fit_alg (toy true) (Plain (SMC2 smc2_half)) [] (new_alg 100 0) [1; 2] [1; 2] [flat; echo] = (a2, Ok (s2, calls2)) /\
  resume (toy true) (Plain (SMC2 smc2_half)) [] 100 (g_rnd (a_world a1)) [3; 4] (save a1 s1) [echo] = (a3, Ok (s3, calls3)) /\
  map snd (s_fs s2) = [Fin 1; Fin 2] /\ map snd (s_fs s3) = [Fin 3; Fin 4].
Proof.
  set (E := toy true). pose proof (toy_ok true) as OK. fold E in OK.
  assert (Q : forall n e, ess_entry e -> xlt e (Fin (c_threshold smc2_half n * INR (e_B E))) = false).
  { intros n e He. change (INR (e_B E)) with (1 + 1)%R. replace (1 + 1)%R with 2%R by ring. exact (not_below_one e He). }
  assert (Ef : exists es, fit_alg E (Plain (SMC2 smc2_half)) [] (new_alg 100 0) [1; 2] [1; 2] [flat] =
    (Alg inst0 inst0 false (World [1; 2] [1; 2] 100 2 0), Ok (St [Fin (0 + 0); Fin (0 + 0)] [(1, Fin (0 + 0)); (1, Fin (0 + 0))] es (Some [flat]) 1, []))).
  { unfold fit_alg. destruct (initial_ok E OK (Plain (SMC2 smc2_half)) (new_alg 100 0) [1; 2] [1; 2] eq_refl eq_refl) as [e ->]. cbn [run].
    match goal with |- context [step E _ [] ?a ?y ?s] => destruct (smc2_quiet E OK smc2_half a y s []) as [e1 ->]; [split; reflexivity|split; reflexivity|reflexivity|apply Q|reflexivity|] end. exists [e; e1]. reflexivity. }
  destruct Ef as (es & Ef). set (a1 := Alg _ _ _ _) in Ef. set (s1 := St _ _ _ _ _) in Ef.
  assert (E2 : exists a2 s2 calls2, run E (Plain (SMC2 smc2_half)) [] a1 [echo] s1 = (a2, Ok (s2, calls2)) /\ map snd (s_fs s2) = [Fin 1; Fin 2]).
  { cbn [run]. destruct (smc2_quiet E OK smc2_half a1 echo s1 [flat]) as [e ->]; [split; reflexivity|split; reflexivity|reflexivity|apply Q|reflexivity|]. do 3 eexists. split; [reflexivity|].
    unfold taken_in. change (corrections E (g_rnd (a_world a1)) (g_np (a_world a1)) (g_model (a_world a1)) (g_ctx (a_world a1)) echo (s_fs s1)) with [(2, Fin 1); (2, Fin (1 + 1))].
    cbn [s_fs s1 append_result zip_with combine map fst snd xadd]. repeat f_equal; ring. }
  destruct E2 as (a2 & s2 & calls2 & E2 & C2).
  assert (E3 : exists a3 s3 calls3, resume E (Plain (SMC2 smc2_half)) [] 100 (g_rnd (a_world a1)) [3; 4] (save a1 s1) [echo] = (a3, Ok (s3, calls3)) /\ map snd (s_fs s3) = [Fin 3; Fin 4]).
  { unfold resume. destruct (initial_ok E OK (Plain (SMC2 smc2_half)) (new_alg 100 0) [3; 4] [3; 4] eq_refl eq_refl) as [e ->]. cbn [load save fst snd run].
    match goal with |- context [step E _ [] ?a ?y ?s] => destruct (smc2_quiet E OK smc2_half a y s [flat]) as [e3 ->]; [split; reflexivity|split; reflexivity|reflexivity|apply Q|reflexivity|] end. do 3 eexists. split; [reflexivity|].
    unfold taken_in. match goal with |- context [corrections ?a ?b ?c ?d ?e ?f ?g] => change (corrections a b c d e f g) with [(2, Fin (1 + 1 + 1)); (2, Fin (1 + 1 + 1 + 1))] end.
    cbn [s_fs s1 append_result zip_with combine map fst snd xadd]. repeat f_equal; ring. }
  destruct E3 as (a3 & s3 & calls3 & E3 & C3). exists a1, s1, [], a2, s2, calls2, a3, s3, calls3. split; [exact OK|]. split; [exact Ef|]. split; [|split; [exact E3|split; [exact C2|exact C3]]].
  change [flat; echo] with ([flat] ++ [echo]). rewrite (C58_continue E _ _ _ _ _ _ _ _ _ _ Ef), E2. reflexivity.
Qed.

(** [C58_partial] applies to SMC2 stopped after a first observation. *)
Example C58_nonvacuous : exists a1 s1 calls1, env_ok (toy false) /\ live (toy false) /\ compatible (Plain (SMC2 smc2_half)) /\
  fit_alg (toy false) (Plain (SMC2 smc2_half)) [] (new_alg 100 0) [1; 2] [1; 2] [flat] = (a1, Ok (s1, calls1)) /\ g_np (a_world a1) = 100 /\ blocks_complete (Plain (SMC2 smc2_half)) 1.
Proof.
  set (E := toy false). pose proof (toy_ok false) as OK. fold E in OK. unfold fit_alg. destruct (initial_ok E OK (Plain (SMC2 smc2_half)) (new_alg 100 0) [1; 2] [1; 2] eq_refl eq_refl) as [e ->]. cbn [run].
  match goal with |- context [step E _ [] ?a ?y ?s] => destruct (smc2_quiet E OK smc2_half a y s []) as [e1 ->]; [split; reflexivity|split; reflexivity|reflexivity| |reflexivity|] end.
  - intros x Hx. change (INR (e_B E)) with (1 + 1)%R. replace (1 + 1)%R with 2%R by ring. exact (not_below_one x Hx).
  - do 3 eexists. split; [exact OK|]. split; [exact toy_live|]. split; [exact I|]. split; [reflexivity|]. split; [reflexivity|exact I].
Qed.
Print Assumptions C58_continue.
Print Assumptions C58_partial.
Print Assumptions C58_blocks_refuted.
Print Assumptions C58_increase_refuted.
Print Assumptions C58_model_refuted.
