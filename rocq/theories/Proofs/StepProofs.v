(** Lemmas about one predict or correct step. *)
From Coq Require Import Reals List Bool Arith Lia Lra.
From Verif.Model Require Import Base Xf Tensor Weights Particle.
From Verif.Spec Require Import WeightsSpec ParticleSpec.
From Verif.Proofs Require Import WeightsProofs MomentsProofs ResamplingProofs ParticleProofs.
Import ListNotations.
Local Open Scope nat_scope.

Lemma col_const_n {A} (m : mat A) j v n : m_rows m = n -> (forall i, i < n -> m_get m i j = v) -> col m j = repeat v n.
Proof. intros <-. apply col_const. Qed.

Lemma map_repeat' {A B} (f : A -> B) a n : map f (repeat a n) = repeat (f a) n.
Proof. induction n as [|n IH]; simpl; [reflexivity|]. now rewrite IH. Qed.

Section Steps.
  Context {X Y : Type}.
  Variable lowest : R.
  Variable o : @oracle X Y.

  Definition W (s : corr X) (j : nat) : list R := imp lowest (col (c_w s) j).
  Definition low (thr : R) (s : corr X) (j : nat) : bool := if Rlt_dec (ess_of (W s j)) thr then true else false.

  Lemma W_prob n b (s : corr X) j : 0 < n -> state_ok n b s -> j < b -> prob_vec (W s j).
  Proof.
    intros Hn [Hx [Hr Hc] He Hi] Hj. apply imp_prob.
    - intros E. apply (f_equal (@length xf)) in E. rewrite length_col in E. simpl in E. lia.
    - apply col_clean; [exact He|lia].
  Qed.

  Lemma rank_ext f g c : (forall j, j < c -> f j = g j) -> rank f c = rank g c /\ selected f c = selected g c.
  Proof.
    intros H. unfold rank, selected. rewrite (filter_ext_in f g). { now split. }
    intros a Ha. apply in_seq in Ha. apply H. lia.
  Qed.

  Lemma sisr_predict_spec thr r n b (s : corr X) : 0 < n -> state_ok n b s -> resampler_ok o n r true ->
    exists p, sisr_predict lowest o thr r s = Ok p /\ ts_time (p_x p) = ts_time (c_x s) /\
      shaped (ts_val (p_x p)) n b /\ shaped (p_w p) n b /\ shaped (p_nw p) n b /\ shaped (p_inds p) n b /\
      (rank (low thr s) b = 0 \/
       exists nw sel, shaped nw n (rank (low thr s) b) /\ resampler o r true nw = Ok sel /\
         valid_selection n (rank (low thr s) b) sel /\
         forall j, j < b -> low thr s j = true -> let k := rank (low thr s) j in
           col nw k = map Fin (W s j) /\
           col (ts_val (p_x p)) j = map (fun a => m_get (ts_val (c_x s)) a j) (col sel k) /\
           col (p_w p) j = repeat (Fin 0) n /\ col (p_nw p) j = repeat (Fin (/ INR n)) n /\
           col (p_inds p) j = col sel k) /\
      forall j, j < b -> low thr s j = false ->
        col (ts_val (p_x p)) j = col (ts_val (c_x s)) j /\
        col (p_w p) j = map (nan_to_num lowest) (col (c_w s) j) /\
        col (p_nw p) j = map Fin (W s j) /\ col (p_inds p) j = col (c_inds s) j.
  Proof.
    intros Hn Hs Hres. pose proof Hs as Hs'. destruct Hs' as [[Hxr Hxc] Hw He [[Hir Hic] Hiv]].
    destruct (normalize_mat_spec lowest n b (c_w s) Hn Hw He) as (nw & Enw & [Hnr Hnc] & Hcols).
    unfold sisr_predict. rewrite Enw. cbn [bind].
    assert (Hbl : forall j, j < b -> below lowest thr nw j = low thr s j).
    { intros j Hj. apply (below_spec lowest thr nw j (W s j)); [now apply (W_prob n b)|now apply Hcols]. }
    set (mask := below lowest thr nw) in *. rewrite Hnc.
    assert (Hrk : forall j, j <= b -> rank mask j = rank (low thr s) j).
    { intros j Hj. apply rank_ext. intros i Hi. apply Hbl. lia. }
    destruct (existsb mask (seq 0 b)) eqn:Eany; simpl negb; cbv iota.
    2:{ eexists. split; [reflexivity|]. cbn [p_x p_w p_nw p_inds]. split; [reflexivity|]. split; [now split|].
        split; [destruct Hw; now split|]. split; [now split|]. split; [now split|].
        assert (E0 : rank (low thr s) b = 0).
        { rewrite <- Hrk by lia. destruct (rank mask b) eqn:E; [reflexivity|].
          assert (existsb mask (seq 0 b) = true) by (apply rank_total_pos; lia). congruence. }
        split; [now left|]. intros j Hj Hl. split; [reflexivity|]. split; [apply col_map_mat|]. split; [now apply Hcols|reflexivity]. }
    destruct (Hres (select_cols nw mask)) as (sel & Esel & [Hsr Hsc] & Hse); [exact Hnr|].
    cbn [select_cols m_cols] in Hsc. rewrite Hnc in Hsc.
    rewrite Esel. cbn [bind].
    destruct (masked_scatter_spec (c_inds s) mask sel) as (inds & Einds & [Hi1 Hi2] & Hinds); [lia|now rewrite Hic|].
    rewrite Einds. cbn [bind].
    destruct (index_cols_spec (ts_val (c_x s)) sel mask) as (temp & Etemp & [Ht1 Ht2] & Htemp);
      [now rewrite Hxc|intros i j H1 H2; rewrite Hxr; now apply Hse|].
    rewrite Etemp. cbn [bind].
    destruct (masked_scatter_spec (ts_val (c_x s)) mask temp) as (vals & Evals & [Hv1 Hv2] & Hvals);
      [lia|rewrite Ht2; now rewrite Hxc|].
    rewrite Evals. cbn [bind].
    eexists. split; [reflexivity|]. cbn [p_x p_w p_nw p_inds ts_time ts_val]. split; [reflexivity|].
    assert (Hwr : m_rows (c_w s) = n /\ m_cols (c_w s) = b) by exact Hw.
    split; [split; congruence|]. split; [split; apply Hwr|]. split; [now split|]. split; [split; congruence|].
    split.
    - right. exists (select_cols nw mask), sel.
      split; [split; [exact Hnr|cbn [select_cols m_cols]; rewrite Hnc; now apply Hrk]|]. split; [exact Esel|].
      split; [split; [split; [exact Hsr|rewrite Hsc; now apply Hrk]|exact Hse]|].
      intros j Hj Hl. assert (Hm : mask j = true) by (rewrite Hbl; assumption).
      cbn zeta. rewrite <- Hrk by lia.
      split; [rewrite col_select by (rewrite ?Hnc; assumption); now apply Hcols|].
      split; [rewrite Hvals by lia; rewrite Hm; apply Htemp; [lia|exact Hm]|].
      split; [|split].
      + apply col_const_n; [exact (proj1 Hwr)|]. intros i Hi. cbn [masked_fill m_get]. now rewrite Hm.
      + apply col_const_n; [exact Hnr|]. intros i Hi. cbn [masked_fill m_get map_mat m_rows]. rewrite Hm.
        rewrite (proj1 Hwr). unfold xdiv.
        destruct (Req_EM_T (INR n) 0) as [E|_]; [change 0%R with (INR 0) in E; apply INR_eq in E; lia|].
        f_equal. unfold Rdiv. ring.
      + rewrite Hinds by lia. now rewrite Hm.
    - intros j Hj Hl. assert (Hm : mask j = false) by (rewrite Hbl; assumption).
      split; [rewrite Hvals by lia; now rewrite Hm|]. split; [|split].
      + rewrite <- col_map_mat. apply col_ext; [reflexivity|]. intros i Hi. cbn [masked_fill m_get]. now rewrite Hm.
      + unfold W. rewrite <- (Hcols j Hj). apply col_ext; [reflexivity|]. intros i Hi. cbn [masked_fill m_get]. now rewrite Hm.
      + rewrite Hinds by lia. now rewrite Hm.
  Qed.

  Lemma col_fin (m : mat xf) j : entries is_fin m -> j < m_cols m -> col m j = map Fin (reals m j).
  Proof.
    intros H Hj. unfold reals, col. rewrite !map_map. apply map_ext_in. intros i Hi. apply in_seq in Hi.
    specialize (H i j ltac:(lia) Hj). destruct (m_get m i j); simpl in H; try contradiction. reflexivity.
  Qed.

  Lemma length_reals m j : length (reals m j) = m_rows m.
  Proof. unfold reals. now rewrite map_length, length_col. Qed.

  Lemma imp_fin rs : imp lowest (map Fin rs) = normal (map exp rs).
  Proof. unfold imp, normal. rewrite !map_map. reflexivity. Qed.

  Lemma tilt_imp rs vs : length rs = length vs -> rs <> [] ->
    (0 < Rsum (tilt (imp lowest (map Fin rs)) vs))%R /\
    imp lowest (map (fun p => Fin (fst p + snd p)) (combine vs rs)) = normal (tilt (imp lowest (map Fin rs)) vs).
  Proof.
    intros Hl Hne. rewrite imp_fin. set (S := Rsum (map exp rs)).
    assert (HS : (0 < S)%R).
    { apply Rsum_pos.
      - intros x Hx. apply in_map_iff in Hx. destruct Hx as (y & <- & _). left. apply exp_pos.
      - destruct rs as [|r rs]; [congruence|]. exists (exp r). split; [now left|apply exp_pos]. }
    assert (Et : tilt (normal (map exp rs)) vs = map (fun p => (/ S * exp (fst p + snd p))%R) (combine vs rs)).
    { unfold tilt, normal. fold S. rewrite map_map. clear HS. clearbody S. revert vs Hl Hne.
      induction rs as [|r rs IH]; intros [|v vs] Hl Hne; try discriminate; [reflexivity|].
      simpl. f_equal.
      - rewrite exp_plus. unfold Rdiv. ring.
      - destruct rs as [|r' rs]; [now destruct vs|]. apply IH; [now injection Hl|discriminate]. }
    rewrite Et. rewrite Rsum_map_scale.
    assert (HT : (0 < Rsum (map (fun p => exp (fst p + snd p)) (combine vs rs)))%R).
    { apply Rsum_pos.
      - intros x Hx. apply in_map_iff in Hx. destruct Hx as (y & <- & _). left. apply exp_pos.
      - destruct rs as [|r rs]; [congruence|]. destruct vs as [|v vs]; [discriminate|]. eexists. split; [now left|apply exp_pos]. }
    split; [apply Rmult_lt_0_compat; [now apply Rinv_0_lt_compat|exact HT]|].
    rewrite <- (map_map (fun p => (fst p + snd p)%R) Fin). rewrite imp_fin. unfold normal. rewrite !map_map.
    rewrite Rsum_map_scale. set (T := Rsum _) in *. apply map_ext. intros p. field. split; lra.
  Qed.

  Lemma lik_fin r : lik (Fin r) = exp r. Proof. reflexivity. Qed.

  Lemma loglik_weighted W vs : length W = length vs -> vs <> [] ->
    log_likelihood (map Fin vs) (Some (map Fin W)) = Ok (xlog (Fin (Rsum (tilt W vs)))).
  Proof.
    intros Hl Hne. destruct vs as [|v vs]; [congruence|].
    rewrite (log_likelihood_weighted _ _ v).
    - do 3 f_equal. unfold tilt. rewrite combine_map_r, map_map. reflexivity.
    - intros x Hx. apply in_map_iff in Hx. destruct Hx as (y & <- & _). exact I.
    - now left.
  Qed.

  Lemma loglik_uniform vs : vs <> [] ->
    log_likelihood (map Fin vs) None = Ok (xlog (Fin (/ INR (length vs) * Rsum (map exp vs))%R)).
  Proof.
    intros Hne. destruct vs as [|v vs]; [congruence|]. set (l := v :: vs).
    rewrite (log_likelihood_uniform _ v).
    - rewrite map_map, map_length. rewrite Rsum_map_scale. reflexivity.
    - intros x Hx. apply in_map_iff in Hx. destruct Hx as (y & <- & _). exact I.
    - now left.
  Qed.

  Lemma xlog_pos t : (0 < t)%R -> xlog (Fin t) = Fin (ln t).
  Proof. intros H. unfold xlog. now rewrite rsign_pos. Qed.

  Lemma sum_exp_pos vs : vs <> [] -> (0 < Rsum (map exp vs))%R.
  Proof.
    intros Hne. apply Rsum_pos.
    - intros x Hx. apply in_map_iff in Hx. destruct Hx as (y & <- & _). left. apply exp_pos.
    - destruct vs as [|v vs]; [congruence|]. exists (exp v). split; [now left|apply exp_pos].
  Qed.

  Lemma nonempty_len {A} (l : list A) n : length l = n -> 0 < n -> l <> [].
  Proof. intros H Hn ->. simpl in H. lia. Qed.

  (** Predictions of all three filters. *)
  Lemma predict_ok k r n b (s : corr X) : 0 < n -> state_ok n b s -> resampler_ok o n r true ->
    exists p, predict lowest o k r s = Ok p /\ pred_ok lowest n b p /\ ts_time (p_x p) = ts_time (c_x s).
  Proof.
    intros Hn Hs Hres. pose proof Hs as Hs'. destruct Hs' as [Hx Hw He Hi].
    assert (Hsan : entries is_fin (map_mat (nan_to_num lowest) (c_w s))).
    { intros i j H1 H2. cbn [map_mat m_get]. apply nan_to_num_clean. now apply He. }
    assert (Himp : forall j, j < b -> imp lowest (col (map_mat (nan_to_num lowest) (c_w s)) j) = imp lowest (col (c_w s) j)).
    { intros j Hj. rewrite col_map_mat. apply imp_sanitise, col_clean; [exact He|]. destruct Hw; lia. }
    destruct k as [thr| |]; unfold predict.
    - destruct (sisr_predict_spec thr r n b s Hn Hs Hres) as (p & Ep & Ht & H1 & H2 & H3 & H4 & Hlow & Hhigh).
      exists p. split; [exact Ep|]. split; [|exact Ht].
      assert (Hcase : forall j, j < b ->
        ((exists sel, valid_selection n (rank (low thr s) b) sel /\ rank (low thr s) j < rank (low thr s) b /\
            col (p_w p) j = repeat (Fin 0) n /\ col (p_nw p) j = repeat (Fin (/ INR n)) n /\
            col (p_inds p) j = col sel (rank (low thr s) j)) \/
         (col (p_w p) j = map (nan_to_num lowest) (col (c_w s) j) /\ col (p_nw p) j = map Fin (W s j) /\ col (p_inds p) j = col (c_inds s) j))).
      { intros j Hj. destruct (low thr s j) eqn:El.
        - left. pose proof (rank_lt (low thr s) j b Hj El) as Hlt. destruct Hlow as [E0|(nw & sel & _ & _ & Hv & Hall)]; [lia|].
          exists sel. destruct (Hall j Hj El) as (_ & _ & Ha & Hb & Hc). tauto.
        - right. destruct (Hhigh j Hj El) as (_ & Ha & Hb & Hc). tauto. }
      constructor; try assumption.
      + intros i j H5 H6. destruct H2 as [H21 H22]. rewrite <- (nth_col (p_w p) i j NaN H5).
        destruct (Hcase j ltac:(lia)) as [(sel & _ & _ & -> & _)|(-> & _)].
        * rewrite (nth_indep _ NaN (Fin 0)) by (rewrite repeat_length; lia). rewrite nth_repeat. exact I.
        * rewrite <- col_map_mat. rewrite nth_col by (cbn [map_mat m_rows]; destruct Hw; lia). apply Hsan; cbn [map_mat m_rows m_cols]; destruct Hw; lia.
      + intros j Hj. destruct (Hcase j Hj) as [(sel & _ & _ & -> & -> & _)|(-> & -> & _)].
        * rewrite imp_zero by exact Hn. now rewrite map_repeat'.
        * unfold W. rewrite <- (Himp j Hj), col_map_mat. reflexivity.
      + split; [exact H4|]. intros i j H5 H6. destruct H4 as [H41 H42]. rewrite <- (nth_col (p_inds p) i j 0 H5).
        destruct (Hcase j ltac:(lia)) as [(sel & [[Hv1 Hv2] Hv3] & Hlt & _ & _ & ->)|(_ & _ & ->)].
        * rewrite nth_col by lia. apply Hv3; lia.
        * destruct Hi as [[Hi1 Hi2] Hi3]. rewrite nth_col by lia. apply Hi3; lia.
    - unfold apf_predict. destruct (normalize_mat_spec lowest n b (c_w s) Hn Hw He) as (nw & -> & [Hn1 Hn2] & Hcols).
      cbn [bind]. eexists. split; [reflexivity|]. split; [|reflexivity]. constructor; cbn [p_x p_w p_nw p_inds]; try assumption.
      + now split.
      + intros j Hj. rewrite Himp by exact Hj. now apply Hcols.
      + split; [now split|]. intros i j H1 H2. cbn [arange m_rows m_get] in *. lia.
    - unfold gpf_predict. destruct (normalize_mat_spec lowest n b (c_w s) Hn Hw He) as (nw & -> & [Hn1 Hn2] & Hcols).
      cbn [bind]. eexists. split; [reflexivity|]. split; [|reflexivity]. constructor; cbn [p_x p_w p_nw p_inds]; try assumption.
      + now split.
      + intros j Hj. rewrite Himp by exact Hj. now apply Hcols.
  Qed.

  Lemma sanitised_ok n b (x : tstate X) w ll inds : shaped (ts_val x) n b -> shaped w n b -> valid_selection n b inds ->
    state_ok n b (Corr x (map_mat (nan_to_num lowest) w) ll inds).
  Proof.
    intros Hx Hw Hi. constructor; cbn [c_x c_w c_inds]; try assumption.
    intros i j H1 H2. cbn [map_mat m_get]. apply nan_to_num_fon.
  Qed.

  Lemma create_state_spec r n b (p : pred X) : 0 < n -> pred_ok lowest n b p -> propagate_shape o r ->
    exists c, create_state lowest o r p = Ok c /\ state_ok n b c /\ c_x c = propagate o r (p_x p) /\
      c_inds c = p_inds p /\ (forall j, c_ll c j = Fin 0) /\ forall j, j < b -> col (c_w c) j = col (p_w p) j.
  Proof.
    intros Hn [Hx Hw Hf Hnw Himp Hi] Hp. unfold create_state. rewrite mk_corr_spec by (destruct Hw; lia).
    eexists. split; [reflexivity|]. split; [|split; [reflexivity|split; [reflexivity|split; [reflexivity|]]]].
    - apply sanitised_ok; try assumption. destruct (Hp (p_x p)) as [H1 H2]. destruct Hx. split; congruence.
    - cbn [c_w]. intros j Hj. apply col_ext; [reflexivity|]. intros i H1. cbn [map_mat m_get]. apply nan_to_num_fin, Hf; [exact H1|].
      destruct Hw; lia.
  Qed.

  Lemma sisr_correct_total r y n b (p : pred X) : 0 < n -> pred_ok lowest n b p -> proposal_shape o r ->
    exists c, sisr_correct lowest o r y p = Ok c /\ state_ok n b c.
  Proof.
    intros Hn [[Hx1 Hx2] Hw Hf Hnw Himp Hi] Hp. unfold sisr_correct.
    destruct (Hp y (p_x p) (p_w p) (p_nw p)) as [[H1 H2] [H3 H4]].
    destruct (sample_and_weight o r y (p_x p) (p_w p) (p_nw p)) as [x v]. cbn [fst snd] in *.
    unfold loglik_mat. destruct (Nat.eqb_spec (m_rows v) 0); [lia|]. cbn [bind].
    rewrite mk_corr_spec by (cbn [zip_mat m_rows]; lia). eexists. split; [reflexivity|].
    apply sanitised_ok; [split; congruence|split; cbn [zip_mat m_rows m_cols]; congruence|exact Hi].
  Qed.

  Lemma sisr_correct_spec r y n b (p : pred X) : 0 < n -> pred_ok lowest n b p -> proposal_shape o r ->
    let v := snd (sample_and_weight o r y (p_x p) (p_w p) (p_nw p)) in
    entries is_fin v ->
    exists c, sisr_correct lowest o r y p = Ok c /\ state_ok n b c /\
      c_x c = fst (sample_and_weight o r y (p_x p) (p_w p) (p_nw p)) /\ c_inds c = p_inds p /\
      forall j, j < b -> let W := imp lowest (col (p_w p) j) in
        (0 < Rsum (tilt W (reals v j)))%R /\
        c_ll c j = Fin (ln (Rsum (tilt W (reals v j)))) /\
        reals (c_w c) j = map (fun q => (fst q + snd q)%R) (combine (reals v j) (reals (p_w p) j)) /\
        entries is_fin (c_w c) /\
        imp lowest (col (c_w c) j) = normal (tilt W (reals v j)).
  Proof.
    intros Hn Hpo Hp v Hv. pose proof Hpo as [[Hx1 Hx2] Hw Hf Hnw Himp Hi]. unfold sisr_correct.
    destruct (Hp y (p_x p) (p_w p) (p_nw p)) as [[H1 H2] [H3 H4]].
    destruct (sample_and_weight o r y (p_x p) (p_w p) (p_nw p)) as [x v0]. cbn [fst snd] in *. subst v.
    destruct Hw as [Hw1 Hw2].
    unfold loglik_mat. destruct (Nat.eqb_spec (m_rows v0) 0); [lia|]. cbn [bind].
    rewrite mk_corr_spec by (cbn [zip_mat m_rows]; lia). eexists. split; [reflexivity|].
    split; [apply sanitised_ok; [split; congruence|split; cbn [zip_mat m_rows m_cols]; congruence|exact Hi]|].
    split; [reflexivity|]. split; [reflexivity|]. cbn [c_w c_ll]. intros j Hj.
    assert (Ev : col v0 j = map Fin (reals v0 j)) by (apply col_fin; [exact Hv|lia]).
    assert (Ew : col (p_w p) j = map Fin (reals (p_w p) j)) by (apply col_fin; [exact Hf|lia]).
    assert (Hl : length (reals (p_w p) j) = length (reals v0 j)) by (rewrite !length_reals; lia).
    assert (Hne : reals (p_w p) j <> []) by (eapply nonempty_len; [apply length_reals|lia]).
    assert (Hnv : reals v0 j <> []) by (eapply nonempty_len; [apply length_reals|lia]).
    destruct (tilt_imp _ _ Hl Hne) as [Hpos Hn2]. cbn zeta. rewrite Ew.
    split; [exact Hpos|].
    assert (Ecol : col (map_mat (nan_to_num lowest) (zip_mat xadd v0 (p_w p))) j =
                   map (fun q => Fin (fst q + snd q)) (combine (reals v0 j) (reals (p_w p) j))).
    { rewrite col_map_mat, zip_col by lia. rewrite Ev, Ew, combine_map_l, combine_map_r, !map_map. reflexivity. }
    split; [|split; [|split]].
    - rewrite Himp by exact Hj. rewrite Ev. rewrite loglik_weighted; [|rewrite length_imp, Ew, map_length; exact Hl|exact Hnv].
      rewrite Ew. now apply xlog_pos.
    - unfold reals at 1. rewrite Ecol, map_map. reflexivity.
    - intros i k H5 H6. cbn [map_mat zip_mat m_get m_rows m_cols] in *.
      specialize (Hv i k H5 H6). specialize (Hf i k ltac:(lia) ltac:(lia)).
      destruct (m_get v0 i k), (m_get (p_w p) i k); simpl in *; try contradiction. exact I.
    - rewrite Ecol. exact Hn2.
  Qed.

  Lemma xdiv_1 n : 0 < n -> xdiv (Fin 1) (Fin (INR n)) = Fin (/ INR n).
  Proof.
    intros Hn. unfold xdiv. destruct (Req_EM_T (INR n) 0) as [E|_].
    - change 0%R with (INR 0) in E. apply INR_eq in E. lia.
    - f_equal. unfold Rdiv. ring.
  Qed.

  Lemma apf_correct_total r y n b (p : pred X) : 0 < n -> pred_ok lowest n b p -> proposal_shape o r ->
    preweight_shape o -> resampler_ok o n r false ->
    exists c, apf_correct lowest o r y p = Ok c /\ state_ok n b c.
  Proof.
    intros Hn Hpo Hp Hg Hres. pose proof Hpo as [[Hx1 Hx2] [Hw1 Hw2] Hf [Hnw1 Hnw2] Himp Hi]. unfold apf_correct.
    destruct (Hg y (p_x p)) as [Hg1 Hg2]. set (g := pre_weight o y (p_x p)) in *.
    destruct (Hres (zip_mat xadd g (p_w p))) as (inds & -> & [Hi1 Hi2] & Hie); [cbn; congruence|]. cbn [bind].
    cbn [zip_mat m_cols] in Hi2. 
    destruct (batched_gather_spec (ts_val (p_x p)) inds) as (vals & -> & [Hv1 Hv2] & _); [lia|now rewrite Hx1|]. cbn [bind].
    destruct (Hp y (TS (ts_time (p_x p)) vals) (map_mat (fun _ => Fin 0) g)
      (map_mat (fun t => xadd t (xdiv (Fin 1) (Fin (INR (m_rows g))))) (map_mat (fun _ => Fin 0) g))) as [[H1 H2] [H3 H4]].
    destruct (sample_and_weight _ _ _ _ _ _) as [x v]. cbn [fst snd ts_val] in *.
    destruct (batched_gather_spec g inds) as (gg & -> & [Hgg1 Hgg2] & _); [lia|rewrite Hg1, Hx1; exact Hie|]. cbn [bind].
    unfold loglik_mat. cbn [zip_mat m_rows]. destruct (Nat.eqb_spec (m_rows v) 0); [lia|]. cbn [bind].
    rewrite mk_corr_spec by (cbn [zip_mat m_rows]; lia). eexists. split; [reflexivity|].
    apply sanitised_ok; [split; congruence|split; cbn [zip_mat m_rows m_cols]; congruence|].
    split; [split; congruence|exact Hie].
  Qed.

  Lemma apf_correct_explicit r y n b (p : pred X) : 0 < n -> pred_ok lowest n b p -> proposal_shape o r ->
    preweight_shape o -> resampler_ok o n r false ->
    let g := pre_weight o y (p_x p) in
    entries is_fin g ->
    let Z := zip_mat xadd g (p_w p) in
    exists anc parents zeros unif,
      resampler o r false Z = Ok anc /\ shaped Z n b /\ entries is_fin Z /\ valid_selection n b anc /\
      ts_time parents = ts_time (p_x p) /\ shaped (ts_val parents) n b /\
      shaped zeros n b /\ shaped unif n b /\
      (forall j, j < b ->
         (0 < Rsum (tilt (imp lowest (col (p_w p) j)) (reals g j)))%R /\
         imp lowest (col Z j) = normal (tilt (imp lowest (col (p_w p) j)) (reals g j)) /\
         col (ts_val parents) j = map (fun a => m_get (ts_val (p_x p)) a j) (col anc j) /\
         col zeros j = repeat (Fin 0) n /\ col unif j = repeat (Fin (/ INR n)) n) /\
      let v := snd (sample_and_weight o r y parents zeros unif) in
      (entries is_fin v -> exists c, apf_correct lowest o r y p = Ok c /\ state_ok n b c /\
         c_x c = fst (sample_and_weight o r y parents zeros unif) /\ c_inds c = anc /\ entries is_fin (c_w c) /\
         forall j, j < b -> 
           let incr := map (fun q => (fst q - nth (snd q) (reals g j) 0)%R) (combine (reals v j) (col anc j)) in
           reals (c_w c) j = incr /\
           c_ll c j = Fin (ln (/ INR n * Rsum (map exp incr)) + ln (Rsum (tilt (imp lowest (col (p_w p) j)) (reals g j))))).
  Proof.
    intros Hn Hpo Hp Hg Hres g Hgf Z. pose proof Hpo as [[Hx1 Hx2] [Hw1 Hw2] Hf [Hnw1 Hnw2] Himp Hi].
    destruct (Hg y (p_x p)) as [Hg1 Hg2]. fold g in Hg1, Hg2.
    destruct (Hres Z) as (anc & Eanc & [Ha1 Ha2] & Hae); [cbn; congruence|].
    cbn [Z zip_mat m_cols] in Ha2.
    destruct (batched_gather_spec (ts_val (p_x p)) anc) as (vals & Evals & [Hv1 Hv2] & _ & Hvc); [lia|now rewrite Hx1|].
    set (zeros := map_mat (fun _ : xf => Fin 0) g).
    set (unif := map_mat (fun t => xadd t (xdiv (Fin 1) (Fin (INR (m_rows g))))) zeros).
    exists anc, (TS (ts_time (p_x p)) vals), zeros, unif.
    split; [exact Eanc|]. split; [split; cbn; congruence|].
    assert (HZ : entries is_fin Z).
    { intros i k H5 H6. cbn [Z zip_mat m_get m_rows m_cols] in *.
      specialize (Hgf i k H5 H6). specialize (Hf i k ltac:(lia) ltac:(lia)).
      destruct (m_get g i k), (m_get (p_w p) i k); simpl in *; try contradiction. exact I. }
    split; [exact HZ|]. split; [split; [split; congruence|exact Hae]|]. split; [reflexivity|].
    split; [split; cbn [ts_val]; congruence|]. split; [split; cbn; congruence|]. split; [split; cbn; congruence|].
    assert (Htilt : forall j, j < b -> (0 < Rsum (tilt (imp lowest (col (p_w p) j)) (reals g j)))%R /\
         imp lowest (col Z j) = normal (tilt (imp lowest (col (p_w p) j)) (reals g j))).
    { intros j Hj.
      assert (Eg : col g j = map Fin (reals g j)) by (apply col_fin; [exact Hgf|lia]).
      assert (Ew : col (p_w p) j = map Fin (reals (p_w p) j)) by (apply col_fin; [exact Hf|lia]).
      unfold Z. rewrite zip_col by lia. rewrite Eg, Ew, combine_map_l, combine_map_r, !map_map. cbn [fst snd xadd].
      apply tilt_imp; [rewrite !length_reals; lia|]. eapply nonempty_len; [apply length_reals|lia]. }
    split.
    { intros j Hj. destruct (Htilt j Hj) as [Ht1 Ht2]. split; [exact Ht1|]. split; [exact Ht2|]. split; [apply Hvc|].
      split; (apply col_const_n; [cbn; congruence|]; intros i Hi'; cbn [zeros unif map_mat m_get]; try reflexivity).
      rewrite Hg1, Hx1, xdiv_1 by exact Hn. cbn [xadd]. f_equal. ring. }
    cbn zeta. intros Hvf.
    unfold apf_correct. fold g Z zeros unif. rewrite Eanc. cbn [bind]. rewrite Evals. cbn [bind].
    destruct (Hp y (TS (ts_time (p_x p)) vals) zeros unif) as [[H1 H2] [H3 H4]].
    destruct (sample_and_weight _ _ _ _ _ _) as [x v]. cbn [fst snd ts_val] in *.
    destruct (batched_gather_spec g anc) as (gg & -> & [Hgg1 Hgg2] & Hgg3 & Hggc); [lia|rewrite Hg1, Hx1; exact Hae|]. cbn [bind].
    unfold loglik_mat. cbn [zip_mat m_rows]. destruct (Nat.eqb_spec (m_rows v) 0); [lia|]. cbn [bind].
    rewrite mk_corr_spec by (cbn; lia). eexists. split; [reflexivity|].
    change (Mat (m_rows v) (m_cols v) (fun i j => xsub (m_get v i j) (m_get gg i j))) with (zip_mat xsub v gg).
    split; [apply sanitised_ok; [split; congruence|split; cbn [zip_mat m_rows m_cols]; congruence|split; [split; congruence|exact Hae]]|].
    split; [reflexivity|]. split; [reflexivity|]. cbn [c_w c_ll].
    assert (Hggf : entries is_fin gg).
    { intros i k H5 H6. rewrite Hgg3. apply Hgf; [|lia]. rewrite Hg1, Hx1. apply Hae; lia. }
    assert (Hdf : entries is_fin (zip_mat xsub v gg)).
    { intros i k H5 H6. cbn [zip_mat m_get m_rows m_cols] in *.
      specialize (Hvf i k H5 H6). specialize (Hggf i k ltac:(lia) ltac:(lia)).
      destruct (m_get v i k), (m_get gg i k); simpl in *; try contradiction. exact I. }
    split.
    { intros i k H5 H6. cbn [map_mat m_get m_rows m_cols] in *. rewrite nan_to_num_fin; now apply Hdf. }
    intros j Hj. destruct (Htilt j Hj) as [Ht1 _].
    assert (Ed : col (zip_mat xsub v gg) j = map Fin (map (fun q => (fst q - nth (snd q) (reals g j) 0)%R) (combine (reals v j) (col anc j)))).
    { rewrite zip_col by lia. rewrite Hggc. rewrite combine_map_r, map_map.
      assert (Ev : col v j = map Fin (reals v j)) by (apply col_fin; [exact Hvf|lia]).
      rewrite Ev, combine_map_l, !map_map. apply map_ext_in. intros [t a] Hin. cbn [fst snd].
      apply in_combine_r in Hin. apply in_col in Hin. destruct Hin as (i & Hi' & <-).
      assert (Hlt : m_get anc i j < m_rows g) by (rewrite Hg1, Hx1; apply Hae; lia).
      unfold reals. rewrite (nth_indep _ 0%R (real_of NaN)) by (rewrite map_length, length_col; exact Hlt).
      rewrite map_nth, nth_col by exact Hlt. specialize (Hgf _ j Hlt ltac:(lia)).
      destruct (m_get g _ j); simpl in Hgf; try contradiction. reflexivity. }
    set (incr := map _ (combine (reals v j) (col anc j))) in *.
    assert (Hli : length incr = n).
    { unfold incr. rewrite map_length, combine_length, length_reals, length_col. lia. }
    cbn zeta. split.
    - unfold reals at 1. rewrite col_map_mat, Ed, !map_map. cbn [nan_to_num real_of]. apply map_id.
    - rewrite Ed. rewrite loglik_uniform by (eapply nonempty_len; eassumption). rewrite Hli.
      assert (Hp1 : (0 < / INR n * Rsum (map exp incr))%R).
      { apply Rmult_lt_0_compat; [apply Rinv_0_lt_compat; now apply lt_0_INR|]. apply sum_exp_pos. eapply nonempty_len; eassumption. }
      rewrite xlog_pos by exact Hp1.
      assert (Eg : col g j = map Fin (reals g j)) by (apply col_fin; [exact Hgf|lia]).
      rewrite Himp by exact Hj. rewrite Eg, combine_map_l, combine_map_r, !map_map.
      rewrite (xsum_map_fin _ (fun q => (fst q * exp (snd q))%R)) by reflexivity.
      fold (tilt (imp lowest (col (p_w p) j)) (reals g j)). rewrite xlog_pos by exact Ht1. reflexivity.
  Qed.
  Lemma apf_correct_spec r y n b (p : pred X) : 0 < n -> pred_ok lowest n b p -> proposal_shape o r ->
    preweight_shape o -> resampler_ok o n r false ->
    let g := pre_weight o y (p_x p) in
    entries is_fin g ->
    exists Z anc parents zeros unif, 
      resampler o r false Z = Ok anc /\ shaped Z n b /\ entries is_fin Z /\ valid_selection n b anc /\
      ts_time parents = ts_time (p_x p) /\ shaped (ts_val parents) n b /\
      shaped zeros n b /\ shaped unif n b /\
      (forall j, j < b ->
         (0 < Rsum (tilt (imp lowest (col (p_w p) j)) (reals g j)))%R /\
         imp lowest (col Z j) = normal (tilt (imp lowest (col (p_w p) j)) (reals g j)) /\
         col (ts_val parents) j = map (fun a => m_get (ts_val (p_x p)) a j) (col anc j) /\
         col zeros j = repeat (Fin 0) n /\ col unif j = repeat (Fin (/ INR n)) n) /\
      let v := snd (sample_and_weight o r y parents zeros unif) in
      (entries is_fin v -> exists c, apf_correct lowest o r y p = Ok c /\ state_ok n b c /\
         c_x c = fst (sample_and_weight o r y parents zeros unif) /\ c_inds c = anc /\ entries is_fin (c_w c) /\
         forall j, j < b -> 
           let incr := map (fun q => (fst q - nth (snd q) (reals g j) 0)%R) (combine (reals v j) (col anc j)) in
           reals (c_w c) j = incr /\
           c_ll c j = Fin (ln (/ INR n * Rsum (map exp incr)) + ln (Rsum (tilt (imp lowest (col (p_w p) j)) (reals g j))))).
  Proof.
    intros Hn Hpo Hp Hg Hres g Hgf. exists (zip_mat xadd g (p_w p)). exact (apf_correct_explicit r y n b p Hn Hpo Hp Hg Hres Hgf).
  Qed.

  Lemma gpf_correct_total r y n b (p : pred X) : 0 < n -> pred_ok lowest n b p -> proposal_shape o r ->
    exists c, gpf_correct lowest o r y p = Ok c /\ state_ok n b c.
  Proof.
    intros Hn [[Hx1 Hx2] Hw Hf Hnw Himp Hi] Hp. unfold gpf_correct.
    destruct (Hp y (p_x p) (p_w p) (p_nw p)) as [[H1 H2] [H3 H4]].
    destruct (sample_and_weight o r y (p_x p) (p_w p) (p_nw p)) as [x v]. cbn [fst snd] in *.
    unfold loglik_mat. destruct (Nat.eqb_spec (m_rows v) 0); [lia|]. cbn [bind].
    rewrite mk_corr_spec by lia. eexists. split; [reflexivity|].
    apply sanitised_ok; [split; congruence|split; congruence|exact Hi].
  Qed.

  Lemma gpf_correct_spec r y n b (p : pred X) : 0 < n -> pred_ok lowest n b p -> proposal_shape o r ->
    let v := snd (sample_and_weight o r y (p_x p) (p_w p) (p_nw p)) in
    entries is_fin v ->
    exists c, gpf_correct lowest o r y p = Ok c /\ state_ok n b c /\
      c_x c = fst (sample_and_weight o r y (p_x p) (p_w p) (p_nw p)) /\ c_inds c = p_inds p /\
      forall j, j < b -> 
        c_ll c j = Fin (ln (/ INR n * Rsum (map exp (reals v j)))) /\
        reals (c_w c) j = reals v j /\
        imp lowest (col (c_w c) j) = normal (map exp (reals v j)).
  Proof.
    intros Hn [[Hx1 Hx2] [Hw1 Hw2] Hf Hnw Himp Hi] Hp v Hv. unfold gpf_correct.
    destruct (Hp y (p_x p) (p_w p) (p_nw p)) as [[H1 H2] [H3 H4]].
    destruct (sample_and_weight o r y (p_x p) (p_w p) (p_nw p)) as [x v0]. cbn [fst snd] in *. subst v.
    unfold loglik_mat. destruct (Nat.eqb_spec (m_rows v0) 0); [lia|]. cbn [bind].
    rewrite mk_corr_spec by lia. eexists. split; [reflexivity|].
    split; [apply sanitised_ok; [split; congruence|split; congruence|exact Hi]|].
    split; [reflexivity|]. split; [reflexivity|]. cbn [c_w c_ll]. intros j Hj.
    assert (Ev : col v0 j = map Fin (reals v0 j)) by (apply col_fin; [exact Hv|lia]).
    assert (Hnv : reals v0 j <> []) by (eapply nonempty_len; [apply length_reals|lia]).
    assert (Ec : col (map_mat (nan_to_num lowest) v0) j = map Fin (reals v0 j)).
    { rewrite col_map_mat, Ev, map_map. reflexivity. }
    split; [|split].
    - rewrite Ev, loglik_uniform by exact Hnv. rewrite length_reals.
      replace (m_rows v0) with n by congruence. apply xlog_pos.
      apply Rmult_lt_0_compat; [apply Rinv_0_lt_compat; now apply lt_0_INR|]. now apply sum_exp_pos.
    - unfold reals at 1. rewrite Ec, map_map. cbn [real_of]. apply map_id.
    - rewrite Ec. apply imp_fin.
  Qed.

  (** All three filters keep the invariant. *)
  Lemma correct_ok k r y n b (p : pred X) : 0 < n -> pred_ok lowest n b p -> proposal_shape o r ->
    preweight_shape o -> resampler_ok o n r false ->
    exists c, correct lowest o k r y p = Ok c /\ state_ok n b c.
  Proof.
    intros. destruct k; unfold correct; [eapply sisr_correct_total|eapply apf_correct_total|eapply gpf_correct_total]; eassumption.
  Qed.

  Lemma initialize_ok n b (x0 : tstate X) : 0 < n -> shaped (ts_val x0) n b -> exists s, initialize lowest n b x0 = Ok s /\ state_ok n b s /\
    c_x s = x0 /\ (forall j, c_ll s j = Fin 0) /\ c_inds s = arange n b /\ forall j, col (c_w s) j = repeat (Fin 0) n.
  Proof.
    intros Hn Hx. unfold initialize. rewrite mk_corr_spec by exact Hn. eexists. split; [reflexivity|].
    split; [|split; [reflexivity|split; [reflexivity|split; [reflexivity|]]]].
    - apply sanitised_ok; [exact Hx|now split|]. split; [now split|]. intros i j H1 H2. exact H1.
    - intros j. apply col_const_n; reflexivity.
  Qed.
End Steps.
