(** Rejuvenation: when it happens and what it does (C51, C52, C54-C56). *)
From Coq Require Import Reals List Bool Arith Lia Lra.
From Verif.Model Require Import Base Xf Weights Pmmh Sequential.
From Verif.Spec Require Import PmmhSpec SequentialSpec.
From Verif.Proofs Require Import WeightsProofs SequentialProofs SequentialToy.
From Verif.Props Require Import PmmhProps SequentialProps.
Import ListNotations.
Local Open Scope nat_scope.

(** ** C55: the acceptance rate *)
Lemma sum_snoc l x : (fold_right Rplus 0 (l ++ [x]) = fold_right Rplus 0 l + x)%R.
Proof. induction l as [|a l IH]; cbn; [lra|rewrite IH; lra]. Qed.
Lemma average_snoc l x : ((x + INR (List.length l) * average l) / INR (S (List.length l)))%R = average (l ++ [x]).
Proof.
  unfold average. rewrite app_length, sum_snoc. cbn [List.length]. replace (List.length l + 1)%nat with (S (List.length l)) by lia.
  destruct l as [|a l]; [cbn; rewrite Rmult_0_l; field|]. field. split; apply not_0_INR; cbn; lia.
Qed.
Lemma average_nil : average [] = 0%R.
Proof. unfold average. cbn. unfold Rdiv. ring. Qed.

Section Moves.
  Context {T F Y K : Type} (E : env T F Y K) (OK : env_ok E).
  Notation B := (e_B E).

  Lemma rate_snoc accs acc : ((accepted_fraction acc + INR (List.length accs) * rate_after accs (List.length accs)) / INR (S (List.length accs)))%R
    = rate_after (accs ++ [acc]) (S (List.length accs)).
  Proof.
    unfold rate_after. rewrite firstn_all, firstn_all2 by (rewrite app_length; cbn; lia). rewrite map_app. cbn [map]. rewrite <- average_snoc, map_length. reflexivity.
  Qed.
  Lemma rate_prefix accs more j : j <= List.length accs -> rate_after (accs ++ more) j = rate_after accs j.
  Proof. intros H. unfold rate_after. rewrite firstn_app. replace (j - List.length accs) with 0 by lia. cbn. now rewrite app_nil_r. Qed.
  Lemma dist_prefix old (hist more : list (list T)) j : j <= List.length hist -> distance_after (e_distance E) old (hist ++ more) j = distance_after (e_distance E) old hist j.
  Proof. intros H. destruct j; cbn; [reflexivity|]. now rewrite app_nth1 by lia. Qed.
  Lemma dist_snoc old (hist : list (list T)) ctx : distance_after (e_distance E) old (hist ++ [ctx]) (S (List.length hist)) = e_distance E ctx old.
  Proof. cbn. rewrite app_nth2 by lia. now rewrite Nat.sub_diag. Qed.

  Lemma moves_spec c np data k old : forall n accs0 (hist0 : list (list T)) rnd prev ctx (fs : list (F * xf)), List.length hist0 = List.length accs0 ->
    (forall th, c_dist c = Some th -> prev = distance_after (e_distance E) old hist0 (List.length hist0)) ->
    let '(ctx', fs', _, accs, low) := pmmh_moves E c np data k old n (List.length accs0) rnd prev (rate_after accs0 (List.length accs0)) ctx fs in
    exists hist, mh_steps E np data k rnd ctx fs accs hist ctx' fs' /\ List.length hist = List.length accs /\ List.length accs <= n /\
      let A := accs0 ++ accs in let H := hist0 ++ hist in
      (forall j, List.length accs0 < j < List.length A -> (c_accept c <= rate_after A j)%R /\ forall th, c_dist c = Some th -> ~ settled (e_distance E) old th H j) /\
      (low = true -> 0 < List.length accs /\ (rate_after A (List.length A) < c_accept c)%R) /\
      (low = false -> (0 < List.length accs -> (c_accept c <= rate_after A (List.length A))%R) /\
         (List.length accs = n \/ exists th, c_dist c = Some th /\ settled (e_distance E) old th H (List.length A))).
  Proof.
    induction n as [|n IH]; intros accs0 hist0 rnd prev ctx fs L0 Pr.
    { cbn [pmmh_moves]. exists []. split; [constructor|]. split; [reflexivity|]. split; [cbn; lia|]. cbn [List.length]. rewrite !app_nil_r. split; [intros; lia|]. split; [discriminate|]. intros _. split; [lia|left; reflexivity]. }
    rewrite (moves_unfold E c np data k old n). destruct (pstep E np data rnd k ctx fs) as [ch acc] eqn:P. cbv zeta. rewrite rate_snoc.
    set (rate' := rate_after (accs0 ++ [acc]) (S (List.length accs0))).
    assert (One : mh_steps E np data k rnd ctx fs [acc] [positions ch] (positions ch) (results ch)) by (econstructor; [exact P|constructor]).
    assert (LA : List.length (accs0 ++ [acc]) = S (List.length accs0)) by (rewrite app_length; cbn; lia).
    destruct (Rlt_dec rate' (c_accept c)) as [Low|High].
    { exists [positions ch]. split; [exact One|]. split; [reflexivity|]. split; [cbn; lia|]. cbv zeta. rewrite LA. split; [intros; lia|]. split; [|discriminate]. intros _. split; [cbn; lia|exact Low]. }
    assert (Go : forall prev', (forall th, c_dist c = Some th -> prev' = e_distance E (positions ch) old /\ ~ settled (e_distance E) old th (hist0 ++ [positions ch]) (S (List.length accs0))) ->
      let '(ctx', fs', _, accs, low) :=
        (let '(ctx', fs', r', accs, low) := pmmh_moves E c np data k old n (S (List.length accs0)) (rnd + 3 + List.length data) prev' rate' (positions ch) (results ch) in
         (ctx', fs', r', acc :: accs, low)) in
      exists hist, mh_steps E np data k rnd ctx fs accs hist ctx' fs' /\ List.length hist = List.length accs /\ List.length accs <= S n /\
      let A := accs0 ++ accs in let H := hist0 ++ hist in
      (forall j, List.length accs0 < j < List.length A -> (c_accept c <= rate_after A j)%R /\ forall th, c_dist c = Some th -> ~ settled (e_distance E) old th H j) /\
      (low = true -> 0 < List.length accs /\ (rate_after A (List.length A) < c_accept c)%R) /\
      (low = false -> (0 < List.length accs -> (c_accept c <= rate_after A (List.length A))%R) /\
         (List.length accs = S n \/ exists th, c_dist c = Some th /\ settled (e_distance E) old th H (List.length A)))).
    { intros prev' Pr'. specialize (IH (accs0 ++ [acc]) (hist0 ++ [positions ch]) (rnd + 3 + List.length data) prev' (positions ch) (results ch)).
      rewrite LA in IH. fold rate' in IH.
      assert (L1 : List.length (hist0 ++ [positions ch]) = S (List.length accs0)) by (rewrite app_length; cbn; lia).
      assert (Q : forall th, c_dist c = Some th -> prev' = distance_after (e_distance E) old (hist0 ++ [positions ch]) (List.length (hist0 ++ [positions ch]))).
      { intros th Eth. destruct (Pr' th Eth) as [-> _]. rewrite L1, <- L0, dist_snoc. reflexivity. }
      specialize (IH L1 Q).
      destruct (pmmh_moves E c np data k old n _ _ _ _ _ _) as [[[[ctx' fs'] r'] accs] low]. destruct IH as (hist & I1 & I2 & I3 & I4).
      exists (positions ch :: hist). split; [econstructor; [exact P|exact I1]|]. split; [cbn; lia|]. split; [cbn; lia|]. cbv zeta in I4 |- *.
      rewrite <- !app_assoc in I4. cbn [app] in I4. destruct I4 as (J1 & J2 & J3).
      split; [|split].
      - intros j Hj. destruct (Nat.eq_dec j (S (List.length accs0))) as [->|Ne]; [|apply J1; cbn in *; lia].
        change (accs0 ++ acc :: accs) with (accs0 ++ ([acc] ++ accs)). change (hist0 ++ positions ch :: hist) with (hist0 ++ ([positions ch] ++ hist)). rewrite !app_assoc.
        split; [rewrite rate_prefix by lia; fold rate'; lra|]. intros th Eth. destruct (Pr' th Eth) as [_ Ns]. intros Se. apply Ns. clear - Se L1. unfold settled in *.
        rewrite (dist_prefix old (hist0 ++ [positions ch]) hist (S (List.length accs0))), (dist_prefix old (hist0 ++ [positions ch]) hist (S (List.length accs0) - 1)) in Se by lia. exact Se.
      - intros Lw. destruct (J2 Lw) as [_ J]. split; [cbn; lia|exact J].
      - intros Lw. destruct (J3 Lw) as [Ja Jb]. split.
        + intros _. destruct (Nat.eq_dec (List.length accs) 0) as [Z|Nz]; [|apply Ja; lia]. apply length_zero_iff_nil in Z. subst accs.
          rewrite LA. fold rate'. lra.
        + destruct Jb as [Jb|Jb]; [left; cbn; lia|right; exact Jb]. }
    destruct (c_dist c) as [th|] eqn:Ed.
    - pose proof (Pr th eq_refl) as Ep. destruct (Rle_dec _ _) as [Le|Gt].
      + exists [positions ch]. split; [exact One|]. split; [reflexivity|]. split; [cbn; lia|]. cbv zeta. rewrite LA. split; [intros; lia|]. split; [discriminate|]. intros _. split; [intros _; fold rate'; lra|]. right. exists th. split; [reflexivity|].
        unfold settled. rewrite <- L0, dist_snoc. replace (S (List.length hist0) - 1) with (List.length hist0) by lia. rewrite dist_prefix by lia. rewrite <- Ep. exact Le.
      + apply Go. intros th' Eth'. injection Eth' as <-. split; [reflexivity|]. unfold settled. rewrite <- L0, dist_snoc. replace (S (List.length hist0) - 1) with (List.length hist0) by lia.
        rewrite dist_prefix by lia. rewrite <- Ep. exact Gt.
    - apply Go. intros th Eth. discriminate.
  Qed.

  (** C55.  The loop performs Metropolis-Hastings steps: at most the configured number; it goes on only while the average
      of the acceptance shares so far is not below the threshold (and, if adaptive, the distances have not settled), and it
      asks for more state particles exactly if that average is below the threshold after the last step. *)
  Theorem C55_rate : forall c np data k old rnd ctx (fs : list (F * xf)),
    let '(ctx', fs', _, accs, low) := pmmh_moves E c np data k old (c_steps c) 0 rnd 0 0 ctx fs in
    exists hist, mh_steps E np data k rnd ctx fs accs hist ctx' fs' /\ List.length hist = List.length accs /\
      List.length accs <= c_steps c /\
      (forall j, 0 < j < List.length accs -> (c_accept c <= rate_after accs j)%R /\ forall th, c_dist c = Some th -> ~ settled (e_distance E) old th hist j) /\
      (low = true <-> 0 < List.length accs /\ (rate_after accs (List.length accs) < c_accept c)%R) /\
      (low = false -> List.length accs = c_steps c \/ exists th, c_dist c = Some th /\ settled (e_distance E) old th hist (List.length accs)).
  Proof.
    intros c np data k old rnd ctx fs. pose proof (moves_spec c np data k old (c_steps c) [] [] rnd 0%R ctx fs eq_refl ltac:(reflexivity)) as H. cbn [List.length] in H.
    replace (rate_after [] 0) with 0%R in H by (symmetry; apply average_nil). destruct (pmmh_moves E c np data k old (c_steps c) 0 rnd 0 0 ctx fs) as [[[[ctx' fs'] r'] accs] low].
    destruct H as (hist & H1 & H2 & H3 & H4 & H5 & H6). cbn [app] in *. exists hist. split; [exact H1|]. split; [exact H2|]. split; [exact H3|]. split; [exact H4|]. split.
    - split; [exact H5|]. intros [Q1 Q2]. destruct low; [reflexivity|]. destruct (H6 eq_refl) as [Q3 _]. specialize (Q3 Q1). lra.
    - intros Lw. apply (H6 Lw).
  Qed.
End Moves.
Print Assumptions C55_rate.

(** ** C56: parameters and filter states stay together *)
Section Together.
  Context {T F Y K : Type} (E : env T F Y K) (OK : env_ok E).
  Notation B := (e_B E).

  Lemma filter_on_nth data : forall rnd np rows fs b t f, List.length rows = List.length fs -> nth_error rows b = Some t -> nth_error fs b = Some f ->
    nth_error (filter_on E rnd np rows rows data fs) b = Some (alone_on E rnd np b t data f).
  Proof.
    induction data as [|y r IH]; intros rnd np rows fs b t f L E1 E2; cbn [filter_on alone_on]; [exact E2|].
    pose proof (corrections_nth E rnd np rows rows y fs b t t f L L E1 E1 E2) as Ec.
    apply IH; [|exact E1|].
    - unfold append_result, zip_with. rewrite map_length, combine_length. unfold corrections. rewrite map_length, combine_length, seq_length, !combine_length. lia.
    - unfold append_result. rewrite (zip_nth _ _ _ b f _ E2 Ec). reflexivity.
  Qed.
  Lemma batch_nth rnd np rows data b t : nth_error rows b = Some t -> nth_error (batch_filter E rnd np rows rows data) b = Some (alone E rnd np b t data).
  Proof.
    intros E1. unfold batch_filter, alone. apply filter_on_nth; [|exact E1|].
    - unfold init_result. rewrite map_length, combine_length, seq_length, combine_length. lia.
    - now apply init_nth.
  Qed.

  (** Slot [b] after a rejuvenation: parameters and filter of one former slot, or a candidate with its own filter run. *)
  Definition sound_slot (ctx0 : list T) (fs0 : list (F * xf)) (idx : list nat) (np : nat) (data : list Y) (k : K) (b : nat) (t : T) (f : F * xf) : Prop :=
    (exists i, slot idx b = Some i /\ slot ctx0 i = Some t /\ slot fs0 i = Some f) \/
    (exists rnd, slot (e_sample E rnd k) b = Some t /\ f = alone E (rnd + 1) np b t data).

  Lemma moves_together c np data k old ctx0 fs0 idx rows fs n i rnd prev rate : List.length ctx0 = B -> List.length fs0 = B -> List.length idx = B -> Forall (fun i => i < B) idx ->
    gather ctx0 idx = Ok rows -> gather fs0 idx = Ok fs ->
    let '(ctx', fs', _, _, _) := pmmh_moves E c np data k old n i rnd prev rate rows fs in
    forall b t f, slot ctx' b = Some t -> slot fs' b = Some f -> sound_slot ctx0 fs0 idx np data k b t f.
  Proof.
    intros L1 L2 Li Fi Er Ef.
    destruct (gather_ok ctx0 idx) as (r1 & Q1 & Q2 & Q3); [now rewrite L1|]. rewrite Er in Q1. injection Q1 as <-.
    destruct (gather_ok fs0 idx) as (r2 & Q4 & Q5 & Q6); [now rewrite L2|]. rewrite Ef in Q4. injection Q4 as <-.
    set (P := fun ctx (fs : list (F * xf)) => forall b t f, slot ctx b = Some t -> slot fs b = Some f -> sound_slot ctx0 fs0 idx np data k b t f).
    assert (P0 : P rows fs).
    { intros b t f Eb1 Eb2. left. assert (Hb : b < List.length idx) by (rewrite <- Q2; apply nth_error_Some; unfold slot in Eb1; rewrite Eb1; discriminate).
      destruct (nth_some idx b Hb) as [j Ej]. exists j. split; [exact Ej|]. unfold slot in *. rewrite <- (Q3 b j Ej), <- (Q6 b j Ej). auto. }
    assert (St : forall rnd ctx fs acc, List.length ctx = B -> List.length fs = B -> List.length acc = B -> P ctx fs ->
       P (where_ acc (e_sample E rnd k) ctx) (where_ acc (batch_filter E (rnd + 1) np (e_sample E rnd k) (e_sample E rnd k) data) fs)).
    { intros r ctx fs1 acc A1 A2 A3 Pc b t f Eb1 Eb2. destruct OK as (_ & _ & _ & _ & Sa & _). specialize (Sa r k).
      assert (Hb : b < B). { rewrite <- A3. pose proof (where_len acc (e_sample E r k) ctx B A3 Sa A1) as Lw. rewrite A3, <- Lw. apply nth_error_Some. unfold slot in Eb1. rewrite Eb1. discriminate. }
      destruct (nth_some acc b ltac:(lia)) as [m Em]. destruct (nth_some (e_sample E r k) b ltac:(lia)) as [t' Et']. destruct (nth_some ctx b ltac:(lia)) as [t0 Et0]. destruct (nth_some fs1 b ltac:(lia)) as [f0 Ef0].
      unfold slot in Eb1, Eb2. rewrite (where_nth _ _ _ b m t' t0 Em Et' Et0) in Eb1. rewrite (where_nth _ _ _ b m _ f0 Em (batch_nth (r + 1) np _ data b t' Et') Ef0) in Eb2.
      destruct m; injection Eb1 as <-; injection Eb2 as <-; [right; exists r; split; [exact Et'|reflexivity]|now apply Pc]. }
    pose proof (moves_ind E OK c np data k old P St n i rnd prev rate rows fs ltac:(lia) ltac:(lia) P0) as M.
    destruct (pmmh_moves E c np data k old n i rnd prev rate rows fs) as [[[[ctx' fs'] r'] accs] low]. apply M.
  Qed.

  (** C56, SMC2.  Without an increase; with an increase every filter is run again with the parameters of its slot. *)
  Theorem C56_smc2 : forall c n g s data, world_ok E g -> state_ok E s -> s_data s = Some data ->
    let '(_, g', r) := pmmh_update E c n g s in
    match r with
    | Ok (Same s') => exists idx p w' k, normalize (e_lowest E) (s_w s) = Ok (p, w') /\ idx = e_resample E (g_rnd g) p /\ k = e_build E (g_ctx g) w' (s_fs s) /\
        List.length idx = B /\ Forall (fun i => i < B) idx /\ List.length (g_ctx g') = B /\ List.length (s_fs s') = B /\
        forall b t f, slot (g_ctx g') b = Some t -> slot (s_fs s') b = Some f -> sound_slot (g_ctx g) (s_fs s) idx (g_np g) data k b t f
    | Ok (Fresh old s') => exists rnd, List.length (g_ctx g') = B /\ List.length (s_fs s') = B /\
        forall b t f, slot (g_ctx g') b = Some t -> slot (s_fs s') b = Some f -> f = alone E rnd (g_np g') b t data
    | Raise e => e = TooManyIncreases
    end.
  Proof.
    intros c n g s data WG WS Sd. destruct (pmmh_ok E OK c n g s data WG WS Sd) as (p & idx & rows & fs & En & Ei & Li & Fi & Er & Ef & Lr & Lf & M).
    destruct WG as [G1 G2]. pose proof WS as [S1 S2].
    pose proof (moves_together c (g_np g) data (e_build E (g_ctx g) (map (nan_to_num (e_lowest E)) (s_w s)) (s_fs s)) rows (g_ctx g) (s_fs s) idx rows fs (c_steps c) 0 (g_rnd g + 2) 0%R 0%R G1 S2 Li Fi Er Ef) as Tg.
    destruct (pmmh_moves _ _ _ _ _ _ _ _ _ _ _ _ _) as [[[[ctx fs'] rnd] accs] low]. destruct M as (M1 & M2 & M3). rewrite M3. destruct low.
    - set (gg := World ctx _ _ _ _). set (s' := St _ _ _ _ _). assert (Wgg : world_ok E gg) by (split; [exact M1|exact G2]).
      assert (Ws' : state_ok E s') by (split; [cbn; rewrite map_length; exact S1|exact M2]). destruct (increase_ok E OK c n gg data s' Wgg Ws') as [I1 I2].
      destruct (Nat.lt_ge_cases n (c_max c)) as [Q|Q]; [|now rewrite (I1 Q)]. destruct (I2 Q) as (Lf' & Lw & ->). exists (g_rnd gg). cbn [g_ctx s_fs g_np]. split; [exact M1|]. split; [exact Lf'|].
      intros b t f Eb1 Eb2. unfold slot in *. rewrite (batch_nth _ _ _ _ b t Eb1) in Eb2. now injection Eb2 as <-.
    - exists idx, p. do 2 eexists. split; [exact En|]. split; [exact Ei|]. split; [reflexivity|]. split; [exact Li|]. split; [exact Fi|]. cbn [g_ctx s_fs]. split; [exact M1|]. split; [exact M2|]. exact Tg.
  Qed.

  (** C56, NESS.  Filter [b] comes from slot [idx b], and the parameters in slot [b] are that slot's or the kernel's jittered
      version of it (entry [b] of the kernel's answer to the same indices: C60). *)
  Theorem C56_ness : forall d g s, world_ok E g -> state_ok E s -> exists idx p w' g' s', online_update E d g s = (g', Ok s') /\
    normalize (e_lowest E) (s_w s) = Ok (p, w') /\ idx = e_resample E (g_rnd g) p /\
    List.length idx = B /\ Forall (fun i => i < B) idx /\ List.length (g_ctx g') = B /\ List.length (s_fs s') = B /\
    forall b t f, slot (g_ctx g') b = Some t -> slot (s_fs s') b = Some f -> exists i, slot idx b = Some i /\ slot (s_fs s) i = Some f /\
      (slot (e_jitter E (g_rnd g + 1) (g_ctx g) p idx) b = Some t \/ (d = true /\ slot (g_ctx g) i = Some t)).
  Proof.
    intros d g s WG WS. destruct (online_ok E OK d g s WG WS) as (p & rows & fs & ctx & En & Er & Ef & Li & Fi & Ec & Lr & Lf & Lc & Eo). set (idx := e_resample E (g_rnd g) p) in *.
    exists idx, p. do 3 eexists. split; [exact Eo|]. split; [exact En|]. split; [reflexivity|]. split; [exact Li|]. split; [exact Fi|]. cbn [g_ctx s_fs]. split; [exact Lc|]. split; [exact Lf|]. intros b t f Eb1 Eb2.
    destruct WG as [G1 G2]. destruct WS as [S1 S2].
    destruct (gather_ok (g_ctx g) idx) as (r1 & Q1 & Q2 & Q3); [now rewrite G1|]. rewrite Er in Q1. injection Q1 as <-.
    destruct (gather_ok (s_fs s) idx) as (r2 & Q4 & Q5 & Q6); [now rewrite S2|]. rewrite Ef in Q4. injection Q4 as <-.
    assert (Hb : b < B) by (rewrite <- Lc; apply nth_error_Some; unfold slot in Eb1; rewrite Eb1; discriminate).
    destruct (nth_some idx b ltac:(lia)) as [i Ei]. exists i. unfold slot in *. split; [exact Ei|]. split; [now rewrite <- (Q6 b i Ei)|].
    rewrite Ec in Eb1. destruct d; [|left; exact Eb1]. destruct OK as (_ & _ & Jit & Co & _). specialize (Jit (g_rnd g + 1) (g_ctx g) p idx G1 Li). specialize (Co (g_rnd g + 2)).
    destruct (nth_some (e_coins E (g_rnd g + 2)) b ltac:(lia)) as [m Em]. destruct (nth_some (e_jitter E (g_rnd g + 1) (g_ctx g) p idx) b ltac:(lia)) as [j Ej]. destruct (nth_some rows b ltac:(lia)) as [r Err].
    rewrite (where_nth _ _ _ b m j r Em Ej Err) in Eb1. destruct m; injection Eb1 as <-; [left; exact Ej|right]. split; [reflexivity|]. now rewrite <- (Q3 b i Ei).
  Qed.
End Together.
Print Assumptions C56_smc2.
Print Assumptions C56_ness.

(** One step, no proposal accepted: the rate is below a fifth. *)
Example C55_nonvacuous : exists rnd, pmmh_moves (toy false) smc2_half 100 [counts_np] tt [1; 1] (c_steps smc2_half) 0 3 0 0 [1; 1] [(1, Fin 100); (1, Fin 100)] =
  ([1; 1], [(1, Fin 100); (1, Fin 100)], rnd, [[false; false]], true) /\ (rate_after [[false; false]] 1 < 1 / 5)%R.
Proof.
  eexists. cbn [smc2_half c_steps]. rewrite moves_unfold, toy_pstep. cbv zeta.
  assert (Rt : ((accepted_fraction [false; false] + INR 0 * 0) / INR 1 < c_accept (Smc2Cfg (fun _ => 1 / 2) 1 (1 / 5) 5 None))%R) by (unfold accepted_fraction; cbn; lra).
  destruct (Rlt_dec _ _) as [_|N]; [|contradiction]. split; [reflexivity|]. unfold rate_after, average, share. cbn. lra.
Qed.
(** Jittering after slot 1 was drawn twice; an increase keeps the rows of slot 1 and runs the filter again. *)
Example C56_nonvacuous :
  (exists g' s', online_update (toy false) false (World [0; 5] [0; 5] 100 0 0) (St [NInf; Fin 0] [(3, Fin 0); (4, Fin 1)] [] None 0) = (g', Ok s') /\ g_ctx g' = [6; 6] /\ s_fs s' = [(4, Fin 1); (4, Fin 1)]) /\
  (exists i g' old new, base_step (toy false) (SMC2 smc2_half) inst0 (World [0; 1] [0; 1] 100 0 0) counts_np (St [Fin 0; Fin 0] [(0, Fin 0); (0, Fin 0)] [] (Some []) 0) = (i, g', Ok (Fresh old new)) /\ g_ctx g' = [1; 1]).
Proof.
  split.
  - destruct (online_ok (toy false) (toy_ok false) false (World [0; 5] [0; 5] 100 0 0) (St [NInf; Fin 0] [(3, Fin 0); (4, Fin 1)] [] None 0)) as (p & rows & fs & ctx & _ & Er & Ef & _ & _ & Ec & _ & _ & _ & Eo); [split; reflexivity|split; reflexivity|].
    cbn in Ef. injection Ef as <-. cbn in Ec. subst ctx. do 2 eexists. split; [exact Eo|]. split; reflexivity.
  - destruct (toy_increase false 100 0 0 []) as (old & new & rnd' & e' & Es & _ & _). do 4 eexists. split; [exact Es|reflexivity].
Qed.
