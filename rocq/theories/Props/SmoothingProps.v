(** Property C30 (pyfilter/filters/particle/base.py: _do_sample_ffbs, smooth). *)
From Coq Require Import Reals List Bool Arith Lia Lra String Ascii.
From Verif.Model Require Import Base Xf Tensor Weights Particle Smoothing.
From Verif.Spec Require Import ParticleSpec LoopSpec SmoothingSpec.
From Verif.Proofs Require Import ParticleProofs.
Import ListNotations.
Local Open Scope nat_scope.

Lemma takes_gather {X} n b (s : corr X) idx : state_ok n b s -> valid_selection n b idx ->
  exists vals, batched_gather (ts_val (c_x s)) idx = Ok vals /\ takes n b s idx vals.
Proof.
  intros [[X1 X2] _ _ _] Hv. pose proof Hv as ((V1 & V2) & V3).
  destruct (batched_gather_spec (ts_val (c_x s)) idx) as (vals & E & [S1 S2] & G & _); [lia|now rewrite X1|].
  exists vals. split; [exact E|]. split; [exact Hv|]. split; [split; congruence|]. intros i j Hi Hj. apply G; lia.
Qed.

(** [rest]: newest first. *)
Lemma ffbs_backward {X} (trans : nat -> nat -> X -> X -> xf) cat n b : categorical_ok cat n b -> forall rest r (s : corr X) last l out,
  (forall s, In s rest -> state_ok n b s) ->
  backward trans cat n b l (last :: out) ->
  exists more, ffbs_loop trans cat r n b rest last = Ok more /\ backward trans cat n b (rev rest ++ l) (rev more ++ last :: out).
Proof.
  intros Hcat. induction rest as [|s rest IH]; intros r s0 last l out Hok Hb; cbn [ffbs_loop].
  - exists []. split; [reflexivity|exact Hb].
  - assert (Hs : state_ok n b s) by (apply Hok; now left). pose proof Hs as [_ [W1 W2] _ _].
    set (logits := fun i j => map _ _).
    assert (Hlen : forall i j, i < n -> j < b -> List.length (logits i j) = n).
    { intros i j _ _. unfold logits. now rewrite map_length, seq_length. }
    destruct (Hcat r logits Hlen) as (idx & Ei & Hi). rewrite Ei. cbn [bind].
    destruct (takes_gather n b s idx Hs Hi) as (vals & Ev & Ht). rewrite Ev. cbn [bind].
    destruct (IH (S r) s vals (s :: l) (last :: out)) as (more & Em & Hm).
    + intros s' H. apply Hok. now right.
    + apply (back_step trans cat n b r s idx vals last l out logits); try assumption.
      intros i j k _ _ Hk. unfold logits.
      rewrite (nth_indep _ NaN (xadd (m_get (c_w s) 0 j) (trans (ts_time (c_x s)) j (m_get (ts_val (c_x s)) 0 j) (m_get last i j))))
        by (rewrite map_length, seq_length; lia).
      rewrite (map_nth (fun k => xadd (m_get (c_w s) k j) (trans (ts_time (c_x s)) j (m_get (ts_val (c_x s)) k j) (m_get last i j)))).
      rewrite seq_nth by lia. reflexivity.
    + rewrite Em. cbn [bind]. exists (vals :: more). split; [reflexivity|].
      cbn [rev]. rewrite <- !app_assoc. exact Hm.
Qed.

Theorem C30_ffbs_trajectories : forall X resample trans cat r n b (states : list (corr X)),
  states <> [] -> (forall s, In s states -> state_ok n b s) ->
  smoother_resampler_ok resample n -> categorical_ok cat n b ->
  exists out, do_sample_ffbs resample trans cat r n b states = Ok out /\ backward trans cat n b states out /\
    exists latest inds, List.last states latest = latest /\ In latest states /\
      resample r (c_w latest) = Ok inds /\
      forall i j, i < n -> j < b -> exists vals, List.last out vals = vals /\ In vals out /\
        m_get vals i j = m_get (ts_val (c_x latest)) (m_get inds i j) j.
Proof.
  intros X resample trans cat r n b states Hne Hok Hres Hcat. unfold do_sample_ffbs.
  destruct (rev states) as [|latest rest] eqn:Er.
  { destruct Hne. rewrite <- (rev_involutive states), Er. reflexivity. }
  assert (Est : states = rev rest ++ [latest]).
  { rewrite <- (rev_involutive states), Er. reflexivity. }
  assert (Hl : state_ok n b latest) by (apply Hok; rewrite Est; apply in_or_app; right; now left).
  pose proof Hl as [_ [W1 W2] _ _].
  destruct (Hres r (c_w latest) W1) as (inds & Ei & Hi). rewrite W2 in Hi. rewrite Ei. cbn [bind].
  destruct (takes_gather n b latest inds Hl Hi) as (vals & Ev & Ht). rewrite Ev. cbn [bind].
  destruct (ffbs_backward trans cat n b Hcat rest (S r) latest vals [latest] []) as (more & Em & Hm).
  - intros s Hs. apply Hok. rewrite Est. apply in_or_app. left. now apply -> in_rev.
  - now apply (back_last trans cat n b latest inds).
  - rewrite Em. cbn [bind rev]. exists (rev more ++ [vals]). split; [reflexivity|]. split; [now rewrite Est|].
    exists latest, inds. split; [rewrite Est; apply last_last|]. split; [rewrite Est; apply in_or_app; right; now left|].
    split; [exact Ei|]. intros i j Hi' Hj. exists vals. split; [apply last_last|]. split; [apply in_or_app; right; now left|].
    now apply Ht.
Qed.
Print Assumptions C30_ffbs_trajectories.

(** What [backward] means for the values returned: one matrix per state, all of whose entries are particles of that
    state, of the same parallel filter. *)
Theorem C30_ffbs_values_are_particles : forall X resample trans cat r n b (states : list (corr X)),
  states <> [] -> (forall s, In s states -> state_ok n b s) ->
  smoother_resampler_ok resample n -> categorical_ok cat n b ->
  exists out, do_sample_ffbs resample trans cat r n b states = Ok out /\
    List.length out = List.length states /\
    forall t s m, nth_error states t = Some s -> nth_error out t = Some m ->
      shaped m n b /\ forall i j, i < n -> j < b -> exists k, k < n /\ m_get m i j = m_get (ts_val (c_x s)) k j.
Proof.
  intros X resample trans cat r n b states Hne Hok Hres Hcat.
  destruct (C30_ffbs_trajectories X resample trans cat r n b states Hne Hok Hres Hcat) as (out & E & Hb & _).
  exists out. split; [exact E|]. clear E Hok Hne. 
  assert (Htk : forall (s : corr X) idx vals, takes n b s idx vals -> shaped vals n b /\ forall i j, i < n -> j < b -> exists k, k < n /\ m_get vals i j = m_get (ts_val (c_x s)) k j).
  { intros s idx vals ((V1 & V2) & Hs & Hg). split; [exact Hs|]. intros i j Hi Hj. exists (m_get idx i j). split; [|now apply Hg].
    destruct V1. apply V2; lia. }
  induction Hb as [s idx vals Ht|r' s idx vals next l out logits Ht _ _ _ _ [IHl IH]].
  - split; [reflexivity|]. intros [|t] s' m Es Em; cbn in Es, Em; [|destruct t; discriminate].
    injection Es as <-. injection Em as <-. exact (Htk _ _ _ Ht).
  - split; [cbn [List.length] in *; now f_equal|]. intros [|t] s' m Es Em; cbn in Es, Em.
    + injection Es as <-. injection Em as <-. exact (Htk _ _ _ Ht).
    + exact (IH t s' m Es Em).
Qed.
Print Assumptions C30_ffbs_values_are_particles.

(** Names. *)
Lemma lower_letter c c' : same_letter c c' -> lower_char c = lower_char c'.
Proof.
  intros H. assert (G : forall a b, 65 <= nat_of_ascii b <= 90 -> nat_of_ascii a = nat_of_ascii b + 32 -> lower_char a = lower_char b).
  { intros a b' Hb Ha. unfold lower_char. rewrite Ha.
    destruct (Nat.leb_spec 65 (nat_of_ascii b')); [|lia]. destruct (Nat.leb_spec (nat_of_ascii b') 90); [|lia].
    destruct (Nat.leb_spec (nat_of_ascii b' + 32) 90); [lia|]. rewrite andb_false_r. cbn [andb]. rewrite <- Ha. now rewrite ascii_nat_embedding. }
  destruct H as [->|[[H1 H2]|[H1 H2]]]; [reflexivity|now apply G|symmetry; now apply G].
Qed.
Lemma lower_spelling w : forall s, spelling_of w s -> lower w = lower s.
Proof.
  induction w as [|c w IH]; intros [|c' s] H; cbn in H; try contradiction; [reflexivity|]. destruct H as [H1 H2].
  cbn [lower]. now rewrite (lower_letter _ _ H1), (IH _ H2).
Qed.
Lemma letter_lower c c' : lower_char c = lower_char c' -> same_letter c c'.
Proof.
  unfold lower_char, same_letter. intros H.
  destruct ((65 <=? nat_of_ascii c) && (nat_of_ascii c <=? 90))%bool eqn:E1;
  destruct ((65 <=? nat_of_ascii c') && (nat_of_ascii c' <=? 90))%bool eqn:E2;
  try (apply andb_prop in E1; destruct E1 as [L1 U1]; apply Nat.leb_le in L1, U1);
  try (apply andb_prop in E2; destruct E2 as [L2 U2]; apply Nat.leb_le in L2, U2);
  apply (f_equal nat_of_ascii) in H; rewrite ?nat_ascii_embedding in H by lia.
  - left. rewrite <- (ascii_nat_embedding c), <- (ascii_nat_embedding c'). f_equal. lia.
  - right. right. lia.
  - right. left. lia.
  - left. rewrite <- (ascii_nat_embedding c), <- (ascii_nat_embedding c'). now f_equal.
Qed.
Lemma spelling_lower w : forall s, lower w = lower s -> spelling_of w s.
Proof.
  induction w as [|c w IH]; intros [|c' s] H; cbn [lower] in H; try discriminate; [exact I|]. injection H as H1 H2.
  split; [now apply letter_lower|now apply IH].
Qed.

Theorem C30_method_names : forall X resample trans cat r n b (states : list (corr X)) method,
  (spelling_of "ffbs" method ->
     smooth resample trans cat r n b states method = do_sample_ffbs resample trans cat r n b states) /\
  smooth resample trans cat r n b states "fl" = do_sample_fl n b states /\
  (~ spelling_of "ffbs" method -> method <> "fl"%string ->
     smooth resample trans cat r n b states method = Raise NotImplementedError).
Proof.
  intros X resample trans cat r n b states method. unfold smooth. split; [|split].
  - intros H. apply lower_spelling in H. rewrite <- H. reflexivity.
  - reflexivity.
  - intros H1 H2. destruct (String.eqb_spec (lower method) "ffbs") as [E|_].
    { destruct H1. apply spelling_lower. rewrite E. reflexivity. }
    destruct (String.eqb_spec method "fl"); [contradiction|reflexivity].
Qed.
Print Assumptions C30_method_names.

Definition first_categorical : nat -> nat -> nat -> (nat -> nat -> list xf) -> res (mat nat) :=
  fun _ n b _ => Ok (Mat n b (fun _ _ => 0)).
Example C30_nonvacuous : categorical_ok first_categorical 2 1 /\
  smoother_resampler_ok (fun _ m => Ok (Mat (m_rows m) (m_cols m) (fun i _ => i))) 2 /\
  spelling_of "ffbs" "FfBs" /\ ~ spelling_of "ffbs" "fl" /\
  state_ok 2 1 (Corr (TS 1 (Mat 2 1 (fun i _ => i))) (Mat 2 1 (fun _ _ => Fin 0)) (fun _ => Fin 0) (arange 2 1)).
Proof.
  split. { intros r logits _. eexists. split; [reflexivity|]. split; [now split|]. intros i j _ _. cbn. lia. }
  split. { intros r m Hm. eexists. split; [reflexivity|]. split; [now split|]. intros i j H _. cbn in *. lia. }
  split. { cbn. repeat split; try (now left). all: right; left; cbn; lia. }
  split. { cbn. tauto. }
  constructor; [now split|now split| |].
  - intros i j _ _. exact I.
  - split; [now split|]. intros i j H _. exact H.
Qed.
