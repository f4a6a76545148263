(** The error of a particle filter, averaged over the draws. *)
From Coq Require Import Reals List Bool Arith Lia Lra.
From Coquelicot Require Import Rcomplements.
From Verif.Model Require Import Base Xf Tensor Weights Particle FilterLoop.
From Verif.Spec Require Import WeightsSpec ResamplingSpec ParticleSpec LoopSpec UnbiasedSpec FairSpec ConvergeSpec.
From Verif.Proofs Require Import WeightsProofs MomentsProofs ResamplingProofs ParticleProofs StepProofs UnbiasedProofs UnbiasedFilter ConvergeProofs.
Import ListNotations.
Local Open Scope nat_scope.

Section Run.
  Context {X U D : Type} (lowest : R) (LU : law (nat -> U)) (LD : law (nat -> D)) (HU : law_ok LU) (HD : law_ok LD) (PD : law_pos LD).
  Variable C : @chances X U D.
  Variables (fr : bool -> U -> list xf -> list nat) (fp : D -> nat -> list X -> list X)
    (fx : D -> list xf -> nat -> list X -> list xf -> list xf -> list X)
    (fw : D -> list xf -> nat -> list X -> list xf -> list xf -> list xf)
    (fg : nat -> list xf -> nat -> list X -> list xf).
  Variables (good : X -> Prop) (usable : list xf -> Prop).
  Hypothesis Hsep : separate LU LD C good usable fr fp fx fw fg.
  Variables (n b j : nat).
  Hypothesis Hn : 0 < n.
  Hypothesis Hj : j < b.
  Variables (kappa G tau thr : R).
  Hypothesis Hkappa : (0 <= kappa)%R.
  Hypothesis HG : (1 <= G)%R.
  Hypothesis Htau : (0 < tau <= 1)%R.
  Hypothesis Hthr : (tau * INR n <= thr)%R.
  Hypothesis Hres : steady_resampling LU kappa n b fr.
  Variables (move : nat -> option (list xf) -> (X -> R) -> X -> R) (movable : nat -> option (list xf) -> (X -> R) -> Prop).
  Hypothesis Hmove : fair_moves LD good n j move movable fp fx fw.
  Hypothesis Hsteady : steady_moves LD good usable G n j move movable fp fx fw.
  Variable dflt : X.
  Notation O := (at_stream C).
  Notation value := (value lowest n j).
  Notation pvalue := (pvalue lowest n j).
  Notation sok := (sok good n b).
  Notation pok := (pok lowest good n b).
  Notation bounded f B := (forall x, good x -> (Rabs (f x) <= B)%R).

  Lemma INR_pos : (0 < INR n)%R.
  Proof. apply lt_0_INR. exact Hn. Qed.
  Lemma tau_pos : (0 < tau * INR n)%R.
  Proof. apply Rmult_lt_0_compat; [lra|exact INR_pos]. Qed.
  (** The weights after prediction are spread out. *)
  Definition even (p : pred X) : Prop := (sumto n (fun i => square (nth i (imp lowest (col (p_w p) j)) 0)) <= / (tau * INR n))%R.

  Lemma nth_const (a : R) i d : i < n -> nth i (repeat a n) d = a.
  Proof. intros H. apply (repeat_spec n a). apply nth_In. now rewrite repeat_length. Qed.

  Lemma predict_error r s f B : sok s -> bounded f B ->
    exists F, at_most LU (fun u => square (F u - value s f)) (kappa * square B / INR n)%R /\
    forall w, supp LU (fst (w r)) -> exists p, predict lowest (O w) (SISR thr) r s = Ok p /\ pok p /\ even p /\
      ts_time (p_x p) = ts_time (c_x s) /\ pvalue p f = F (fst (w r)).
  Proof.
    intros [Hs Hgood] HB. pose proof Hs as [[Hx1 Hx2] [Hw1 Hw2] He Hi]. pose proof INR_pos as Hn0. pose proof tau_pos as Ht0.
    set (W := W lowest s j). assert (HW : prob_vec W) by (eapply W_prob; eassumption).
    assert (LW : length W = n) by (unfold W, StepProofs.W; rewrite length_imp, length_col; exact Hw1).
    set (pick u := fr true (u (rank (low lowest thr s) j)) (map Fin W)).
    exists (fun u => if low lowest thr s j then (/ INR n * Rsum (map (fun a => f (m_get (ts_val (c_x s)) a j)) (pick u)))%R else value s f).
    split.
    - destruct (low lowest thr s j).
      + refine (Hres (rank (low lowest thr s) j) W (fun a => f (m_get (ts_val (c_x s)) a j)) B _ HW LW _).
        * eapply Nat.le_lt_trans; [apply (rank_le n b j Hn Hj)|exact Hj].
        * intros i Hi'. apply HB. apply Hgood; lia.
      + apply (at_most_weaken LU _ (fun _ => 0%R) 0%R); [intros; unfold square; lra|now apply at_most_const|].
        apply Rmult_le_pos; [apply Rmult_le_pos; [exact Hkappa|apply square_nonneg]|]. left. now apply Rinv_0_lt_compat.
    - intros w Hw. pose proof (res_ok LU LD C fr fp fx fw fg good usable Hsep n b j Hn Hj w r true Hw) as Hro.
      destruct (predict_ok lowest (O w) (SISR thr) r n b s Hn Hs Hro) as (p & Ep & Hp & Et).
      exists p. split; [exact Ep|].
      destruct (sisr_predict_spec lowest (O w) thr r n b s Hn Hs Hro) as (p' & Ep' & _ & [X1 X2] & _ & _ & _ & Hlow & Hhigh).
      cbn [predict] in Ep. rewrite Ep in Ep'. injection Ep' as <-.
      assert (Hgp : entries good (ts_val (p_x p))).
      { apply (fin_cols n b j Hn Hj). intros q Hq. rewrite X2 in Hq. destruct (low lowest thr s q) eqn:El; [|rewrite (proj1 (Hhigh q Hq El)); apply good_col; [exact Hgood|lia]].
        destruct Hlow as [Hz|(nw & sel & _ & _ & [[S1 S2] Hse] & Hall)]; [pose proof (rank_lt _ _ _ Hq El); lia|].
        destruct (Hall q Hq El) as (_ & E2 & _). rewrite E2. apply Forall_forall. intros v Hv. apply in_map_iff in Hv. destruct Hv as (a & <- & Ha).
        apply in_col in Ha. destruct Ha as (i & Hi' & <-). apply Hgood; [|lia]. rewrite Hx1. apply Hse; [exact Hi'|]. rewrite S2. now apply rank_lt. }
      split; [split; [exact Hp|exact Hgp]|]. unfold even. unfold UnbiasedFilter.pvalue, spread. destruct (low lowest thr s j) eqn:El.
      + destruct Hlow as [Hz|(nw & sel & [S1 S2] & Esel & [_ Hse] & Hall)]; [pose proof (rank_lt _ _ _ Hj El); lia|].
        destruct (Hall j Hj El) as (E1 & E2 & E3 & _).
        destruct (sep_resample _ _ _ _ _ _ _ _ _ _ Hsep w r true Hw nw ltac:(lia)) as (sel' & Esel' & [T1 T2] & _ & Hc).
        rewrite Esel in Esel'. injection Esel' as <-.
        assert (Hr : rank (low lowest thr s) j < m_cols nw) by (rewrite S2; now apply rank_lt).
        rewrite Hc, E1 in E2 by exact Hr. fold W in E2. change (fr true _ _) with (pick (fst (w r))) in E2.
        destruct (fr_valid LU LD C fr fp fx fw fg good usable Hsep n b j Hn Hj w (fst (w r)) (rank (low lowest thr s) j) (map Fin W) true Hw ltac:(now rewrite map_length)) as [_ Lp].
        fold (pick (fst (w r))) in Lp.
        assert (Ei : imp lowest (repeat (Fin 0) n) = repeat (/ INR n)%R n).
        { replace (repeat (Fin 0) n) with (map Fin (repeat 0%R n)) by now rewrite map_repeat'. rewrite imp_fin, map_repeat', exp_0. unfold normal.
          rewrite map_repeat'. f_equal. rewrite Rsum_repeat. field. lra. }
        rewrite E3, Ei. split; [|split; [exact Et|]].
        * rewrite (sumto_ext n _ (fun i => square (/ INR n) * 1)%R) by (intros i Hi'; rewrite nth_const by exact Hi'; ring).
          rewrite sumto_scal.
          assert (En : sumto n (fun _ => 1%R) = INR n).
          { clear. induction n as [|m IH]; [reflexivity|]. rewrite sumto_S, IH, S_INR. reflexivity. }
          rewrite En. replace (square (/ INR n) * INR n)%R with (/ INR n)%R by (unfold square; field; lra).
          apply Rinv_le_contravar; [exact Ht0|]. rewrite <- (Rmult_1_l (INR n)) at 2. apply Rmult_le_compat_r; lra.
        * rewrite (sumto_ext n _ (fun i => / INR n * nth i (map (fun a => f (m_get (ts_val (c_x s)) a j)) (pick (fst (w r)))) 0)%R).
          { rewrite sumto_scal. f_equal. rewrite <- Lp at 1. rewrite <- (map_length (fun a => f (m_get (ts_val (c_x s)) a j))). now rewrite <- Rsum_nth. }
          intros i Hi'. rewrite nth_const by exact Hi'. f_equal.
          rewrite (nth_map' _ _ _ _ 0) by now rewrite Lp. f_equal.
          rewrite <- (nth_col (ts_val (p_x p)) i j dflt) by lia. rewrite E2. now rewrite (nth_map' _ _ _ _ 0) by now rewrite Lp.
      + destruct (Hhigh j Hj El) as (E1 & E2 & _). rewrite E2. rewrite imp_sanitise by (apply col_clean; [exact He|lia]).
        change (imp lowest (col (c_w s) j)) with W. split; [|split; [exact Et|]].
        * unfold low in El. change (StepProofs.W lowest s j) with W in El. destruct (Rlt_dec (ess_of W) thr) as [|Hess]; [discriminate|].
          unfold ess_of in Hess.
          assert (Eq : sumto n (fun i => square (nth i W 0%R)) = Rsum (map (fun x => x * x)%R W)).
          { rewrite Rsum_nth, map_length, LW. apply sumto_ext. intros i Hi'. rewrite (nth_map' _ _ _ _ 0%R) by lia. reflexivity. }
          rewrite Eq. set (S0 := Rsum _) in *.
          assert (Hpos : (0 < / S0)%R) by lra.
          assert (S0pos : (0 < S0)%R).
          { destruct (Rle_lt_dec S0 0) as [L|L]; [|exact L]. exfalso. destruct (Rle_lt_or_eq_dec _ _ L) as [L'|L']; [apply Rinv_lt_0_compat in L'; lra|]. rewrite L', Rinv_0 in Hpos. lra. }
          rewrite <- (Rinv_involutive S0) by lra. apply Rinv_le_contravar; [exact Ht0|lra].
        * apply sumto_ext. intros i Hi'. unfold W, StepProofs.W. do 2 f_equal. apply col_eq_get; [exact E1|lia|lia].
  Qed.

  (** Bounds on the expectation after one move. *)
  Lemma move_bound (w0 : filter_stream U D) t y f B x : good x -> (forall y', y = Some y' -> usable y') -> movable t y f -> (0 <= B)%R -> bounded f B ->
    (Rabs (move t y f x) <= G * B)%R.
  Proof.
    intros Hx Hy Hm HB0 HB. set (xm := TS t (Mat n (S j) (fun _ _ => x))). set (zs := Mat n (S j) (fun _ _ => Fin 0)).
    set (xs := col (ts_val xm) j).
    assert (Lx : length xs = n) by apply length_col.
    assert (Gx : Forall good xs) by (apply Forall_forall; intros z Hz; apply in_col in Hz; destruct Hz as (i & _ & <-); exact Hx).
    assert (Ex : nth 0 xs dflt = x) by (unfold xs; rewrite nth_col by exact Hn; reflexivity).
    rewrite <- Ex. destruct y as [y|].
    - pose proof (Hy y eq_refl) as Hu.
      apply (averages_bound LD HD PD _ _ (G * B)%R (proj2 Hmove y t xs (col zs j) (col zs j) 0 f dflt Lx Gx Hn Hm)).
      intros d Hd. rewrite Rabs_mult. apply Rmult_le_compat; [apply Rabs_pos|apply Rabs_pos| |].
      + rewrite Rabs_right by (left; apply exp_pos). apply (steady_weights _ _ _ _ _ _ _ _ _ _ _ Hsteady); assumption.
      + apply HB. destruct (sep_propose_good _ _ _ _ _ _ _ _ _ _ Hsep d j y t xs (col zs j) (col zs j) Hd Hu Gx) as [G1 _].
        destruct (sep_propose _ _ _ _ _ _ _ _ _ _ Hsep (fun r => (fst (w0 r), d)) 0 Hd y xm zs zs) as (_ & [L1 L2] & _ & Hc).
        destruct (Hc j ltac:(cbn; lia)) as [Hc1 _]. cbn [fst snd] in Hc1. fold xs in Hc1. cbn [xm ts_time] in Hc1.
        apply (proj1 (Forall_forall _ _) G1), nth_In. rewrite <- Hc1, length_col, L1. exact Hn.
    - apply (averages_bound LD HD PD _ _ (G * B)%R (proj1 Hmove t xs 0 f dflt Lx Gx Hn Hm)). intros d Hd.
      assert (Rabs (f (nth 0 (fp (d j) t xs) dflt)) <= B)%R.
      { apply HB. pose proof (sep_walk_good _ _ _ _ _ _ _ _ _ _ Hsep d j t xs Hd Gx) as G1.
        destruct (sep_walk _ _ _ _ _ _ _ _ _ _ Hsep d Hd xm) as (_ & [L1 L2] & Hc). specialize (Hc j ltac:(cbn; lia)). fold xs in Hc. cbn [xm ts_time] in Hc.
        apply (proj1 (Forall_forall _ _) G1), nth_In. rewrite <- Hc, length_col, L1. exact Hn. }
      pose proof (Rmult_le_compat_r B 1 G HB0 HG). lra.
  Qed.

  Lemma even_error a V : (sumto n (fun i => square (a i)) <= / (tau * INR n))%R -> (sumto n (fun i => square (a i)) * square V <= square V / (tau * INR n))%R.
  Proof. intros H. unfold Rdiv. rewrite (Rmult_comm (square V)). apply Rmult_le_compat_r; [apply square_nonneg|exact H]. Qed.

  Lemma create_error p f B : pok p -> even p -> movable (ts_time (p_x p)) None f -> bounded f B ->
    exists F, at_most LD (fun d => square (F d - pvalue p (move (ts_time (p_x p)) None f))) (square (G * B) / (tau * INR n))%R /\
    forall w r, supp LD (snd (w r)) -> exists c, create_state lowest (O w) r p = Ok c /\ sok c /\
      ts_time (c_x c) = S (ts_time (p_x p)) /\ (exp (real_of (c_ll c j)) <= G)%R /\ (exp (real_of (c_ll c j)) * value c f)%R = F (snd (w r)).
  Proof.
    intros [Hp Hgood] Hev Hm HB. pose proof Hp as [[Hx1 Hx2] [Hw1 Hw2] Hf _ _ _]. set (t := ts_time (p_x p)) in *. set (xs := col (ts_val (p_x p)) j).
    set (W := imp lowest (col (p_w p) j)).
    exists (fun d => sumto n (fun i => nth i W 0 * f (nth i (fp (d j) t xs) dflt))%R). split.
    - assert (Lx : length xs = n) by (unfold xs; now rewrite length_col).
      assert (Gx : Forall good xs) by (unfold xs; apply good_col; [exact Hgood|lia]).
      pose proof (steady_walk _ _ _ _ _ _ _ _ _ _ _ Hsteady t xs f B (fun i => nth i W 0%R) dflt Lx Gx Hm HB) as H.
      apply (at_most_weaken LD) with (2 := H).
      + intros d Hd. right. f_equal. unfold UnbiasedFilter.pvalue, spread. fold W. f_equal. apply (sumto_ext n). intros i Hi.
        unfold xs. rewrite nth_col by lia. reflexivity.
      + pose proof (even_error (fun i => nth i W 0%R) B Hev) as E. eapply Rle_trans; [exact E|]. unfold Rdiv.
        apply Rmult_le_compat_r; [left; apply Rinv_0_lt_compat, tau_pos|].
        replace (square (G * B)) with (square G * square B)%R by (unfold square; ring).
        pose proof (square_nonneg B). assert (1 <= square G)%R by (unfold square; nra). nra.
    - intros w r Hw. destruct (create_state_spec lowest (O w) r n b p Hn Hp (walk_ok LU LD C fr fp fx fw fg good usable Hsep w r Hw)) as (c & Ec & Hc & Ex & _ & El & Ew).
      destruct (sep_walk _ _ _ _ _ _ _ _ _ _ Hsep _ Hw (p_x p)) as (T & [S1 S2] & Hcol). cbn [at_stream propagate] in Ex.
      exists c. split; [exact Ec|]. split; [split; [exact Hc|]|].
      { apply (fin_cols n b j Hn Hj). rewrite Ex. intros q Hq. rewrite Hcol by lia. apply (sep_walk_good _ _ _ _ _ _ _ _ _ _ Hsep); [exact Hw|]. apply good_col; [exact Hgood|lia]. }
      rewrite Ex. split; [exact T|]. rewrite El. cbn [real_of]. rewrite exp_0. split; [exact HG|]. rewrite Rmult_1_l.
      unfold UnbiasedFilter.value, spread. rewrite (Ew j Hj). fold W. apply sumto_ext. intros i Hi. do 2 f_equal. rewrite Ex.
      rewrite <- (nth_col (ts_val (walk C (snd (w r)) (p_x p))) i j dflt) by lia. now rewrite Hcol by lia.
  Qed.

  Lemma sisr_error y p f B : usable y -> pok p -> even p -> movable (ts_time (p_x p)) (Some y) f -> bounded f B ->
    exists F, at_most LD (fun d => square (F d - pvalue p (move (ts_time (p_x p)) (Some y) f))) (square (G * B) / (tau * INR n))%R /\
    forall w r, supp LD (snd (w r)) -> exists c, correct lowest (O w) (SISR thr) r y p = Ok c /\ sok c /\
      ts_time (c_x c) = S (ts_time (p_x p)) /\ (exp (real_of (c_ll c j)) <= G)%R /\ (exp (real_of (c_ll c j)) * value c f)%R = F (snd (w r)).
  Proof.
    intros Hy [Hp Hgood] Hev Hm HB. pose proof Hp as [[Hx1 Hx2] [Hw1 Hw2] Hf _ _ _]. set (t := ts_time (p_x p)) in *. set (xs := col (ts_val (p_x p)) j).
    assert (Lx : length xs = n) by (unfold xs; now rewrite length_col).
    assert (Gx : Forall good xs) by (unfold xs; apply good_col; [exact Hgood|lia]).
    set (W := imp lowest (col (p_w p) j)).
    set (v d := fw (d j) y t xs (col (p_w p) j) (col (p_nw p) j)). set (x' d := fx (d j) y t xs (col (p_w p) j) (col (p_nw p) j)).
    exists (fun d => sumto n (fun i => nth i W 0 * (exp (real_of (nth i (v d) NaN)) * f (nth i (x' d) dflt)))%R). split.
    - pose proof (steady_propose _ _ _ _ _ _ _ _ _ _ _ Hsteady y t xs (col (p_w p) j) (col (p_nw p) j) f B (fun i => nth i W 0%R) dflt Hy Lx Gx Hm HB) as H.
      apply (at_most_weaken LD) with (2 := H).
      + intros d Hd. right. f_equal. unfold UnbiasedFilter.pvalue, spread. fold W. f_equal. apply (sumto_ext n). intros i Hi.
        unfold xs. rewrite nth_col by lia. reflexivity.
      + exact (even_error (fun i => nth i W 0%R) (G * B) Hev).
    - intros w r Hw. cbn [correct].
      pose proof (fun v nv => saw_good LU LD C fr fp fx fw fg good usable Hsep n b j Hn Hj w r y (p_x p) v nv Hy Hw Hgood) as SG.
      destruct (sisr_correct_spec lowest (O w) r y n b p Hn Hp (prop_ok LU LD C fr fp fx fw fg good usable Hsep w r Hw) (proj2 (SG _ _))) as (c & Ec & Hc & Ex & _ & Hcol).
      destruct (sep_propose _ _ _ _ _ _ _ _ _ _ Hsep w r Hw y (p_x p) (p_w p) (p_nw p)) as (T & [S1 S2] & [S3 S4] & Hcs).
      destruct (Hcs j ltac:(lia)) as [C1 C2]. destruct (Hcol j Hj) as (Hpos & Ell & _ & _ & Ei).
      exists c. split; [exact Ec|]. split; [split; [exact Hc|rewrite Ex; now apply SG]|]. rewrite Ex. split; [exact T|].
      set (vm := snd (sample_and_weight (O w) r y (p_x p) (p_w p) (p_nw p))) in *.
      assert (En : forall i, i < n -> nth i (tilt W (reals vm j)) 0%R = (nth i W 0 * exp (real_of (nth i (v (snd (w r))) NaN)))%R).
      { intros i Hi. rewrite nth_tilt by (unfold W; rewrite length_imp, length_col, length_reals; lia). rewrite nth_reals by lia.
        rewrite <- (nth_col vm i j NaN) by lia. rewrite C2. reflexivity. }
      split.
      + rewrite Ell. cbn [real_of]. rewrite exp_ln by exact Hpos. fold W.
        assert (LW : length W = n) by (unfold W; rewrite length_imp, length_col; lia).
        assert (HW : prob_vec W) by (unfold W; apply imp_prob; [intros E; apply (f_equal (@length xf)) in E; rewrite length_col in E; simpl in E; lia|
          intros z Hz; apply in_col in Hz; destruct Hz as (i & Hi & <-); specialize (Hf i j Hi ltac:(lia)); destruct (m_get (p_w p) i j); simpl in *; tauto]).
        rewrite Rsum_nth. replace (length (tilt W (reals vm j))) with n by (rewrite (length_tilt n b j Hn Hj); [lia|rewrite length_reals; lia]).
        apply Rle_trans with (sumto n (fun i => G * nth i W 0)%R).
        * apply sumto_le. intros i Hi. rewrite En by exact Hi. rewrite Rmult_comm. apply Rmult_le_compat_r; [apply HW; apply nth_In; lia|].
          apply (steady_weights _ _ _ _ _ _ _ _ _ _ _ Hsteady); assumption.
        * rewrite sumto_scal. rewrite <- LW, <- Rsum_nth. rewrite (proj2 HW). lra.
      + rewrite (corrected_value lowest n j c _ _ f Hpos Ell Ei Hpos). apply sumto_ext. intros i Hi. rewrite Ex. fold W. rewrite En by exact Hi.
        rewrite <- (nth_col (ts_val (fst (sample_and_weight (O w) r y (p_x p) (p_w p) (p_nw p)))) i j dflt) by lia. rewrite C1.
        fold t xs. fold (x' (snd (w r))). field. fold W in Hpos. lra.
  Qed.

  Lemma settle_error y p f B : (seen y <> None -> usable y) -> pok p -> even p -> movable (ts_time (p_x p)) (seen y) f -> bounded f B ->
    exists F, at_most LD (fun d => square (F d - pvalue p (move (ts_time (p_x p)) (seen y) f))) (square (G * B) / (tau * INR n))%R /\
    forall w r, supp LD (snd (w r)) -> exists c, settle lowest (SISR thr) (O w) r y p = Ok c /\ sok c /\
      ts_time (c_x c) = S (ts_time (p_x p)) /\ (exp (real_of (c_ll c j)) <= G)%R /\ (exp (real_of (c_ll c j)) * value c f)%R = F (snd (w r)).
  Proof.
    intros Hy Hp He. rewrite seen_missing in *. unfold settle. destruct (missing y); intros Hm HB; [now apply create_error|].
    apply sisr_error; try assumption. now apply Hy.
  Qed.

  (** * The loop *)
  (** From a corrected state to the prediction ... *)
  Lemma state_step (s : corr X) h B (f est : filter_stream U D -> R) k r w A D0 P : sok s -> bounded h B -> (0 <= A)%R ->
    (forall u d p, supp LU u -> supp LD d -> predict lowest (O (put w r (u, d))) (SISR thr) r s = Ok p -> pok p -> even p -> ts_time (p_x p) = ts_time (c_x s) ->
       forall A' D', (0 <= A')%R -> (forall w', agree (S r) (put w r (u, d)) w' -> (f w' <= A' * square (est w' - pvalue p h) + D')%R) ->
       at_most_over LU LD k (S r) f (put w r (u, d)) (A' * P + D')%R) ->
    (forall w', agree r w w' -> (f w' <= A * square (est w' - value s h) + D0)%R) ->
    at_most_over LU LD (S k) r f w (A * (2 * P + 2 * (kappa * square B / INR n)) + D0)%R.
  Proof.
    intros Hs HB HA Hrec Hf. destruct (predict_error r s h B Hs HB) as (F & HF & Hw).
    set (T u := ((2 * A) * square (F u - value s h) + (2 * A * P + D0))%R).
    exists (fun u _ => T u), T. split; [|split].
    - intros u d Hu Hd. set (w1 := put w r (u, d)) in *.
      assert (E1 : w1 r = (u, d)) by (unfold w1, put; now rewrite Nat.eqb_refl).
      destruct (Hw w1) as (p & Ep & Hp & Hev & Tp & Ev); [now rewrite E1|]. rewrite E1 in Ev. cbn [fst] in Ev.
      replace (T u) with (2 * A * P + (2 * A * square (F u - value s h) + D0))%R by (unfold T; ring).
      apply (Hrec u d p Hu Hd Ep Hp Hev Tp); [lra|]. intros w' Ha. apply agree_put in Ha. destruct Ha as [_ Ha]. specialize (Hf w' Ha).
      rewrite <- Ev. pose proof (square_plus (est w' - pvalue p h) (pvalue p h - value s h)) as Q.
      replace (est w' - pvalue p h + (pvalue p h - value s h))%R with (est w' - value s h)%R in Q by ring.
      apply (Rmult_le_compat_l A) in Q; [lra|exact HA].
    - intros u _. now apply at_most_const.
    - apply (at_most_weaken LU _ T) with (1 := fun _ _ => Rle_refl _) (2 := at_most_affine LU HU (2 * A) (2 * A * P + D0) _ _ ltac:(lra) HF). right. ring.
  Qed.
  (** ... and from there to the next corrected state, by [act]. *)
  Lemma pred_step (p : pred X) mv f' B (act : @oracle X (list xf) -> nat -> res (corr X)) (f est est' : filter_stream U D -> R) k r w A D0 P : (0 <= P)%R ->
    (exists F, at_most LD (fun d => square (F d - pvalue p mv)) (square (G * B) / (tau * INR n))%R /\
      forall w r, supp LD (snd (w r)) -> exists c, act (O w) r = Ok c /\ sok c /\
      ts_time (c_x c) = S (ts_time (p_x p)) /\ (exp (real_of (c_ll c j)) <= G)%R /\ (exp (real_of (c_ll c j)) * value c f')%R = F (snd (w r))) -> (0 <= A)%R ->
    (forall u d c, supp LU u -> supp LD d -> act (O (put w r (u, d))) r = Ok c -> sok c -> ts_time (c_x c) = S (ts_time (p_x p)) ->
       (forall w', agree (S r) (put w r (u, d)) w' -> est w' = (exp (real_of (c_ll c j)) * est' w')%R) /\
       forall A' D', (0 <= A')%R -> (forall w', agree (S r) (put w r (u, d)) w' -> (f w' <= A' * square (est' w' - value c f') + D')%R) ->
       at_most_over LU LD k (S r) f (put w r (u, d)) (A' * P + D')%R) ->
    (forall w', agree r w w' -> (f w' <= A * square (est w' - pvalue p mv) + D0)%R) ->
    at_most_over LU LD (S k) r f w (A * (2 * square G * P + 2 * (square (G * B) / (tau * INR n))) + D0)%R.
  Proof.
    intros HP (F & HF & Hw) HA Hrec Hf.
    set (T (d : nat -> D) := ((2 * A) * square (F d - pvalue p mv) + (2 * A * square G * P + D0))%R).
    exists (fun _ d => T d), (fun _ => (2 * A * (square (G * B) / (tau * INR n)) + (2 * A * square G * P + D0))%R). split; [|split].
    - intros u d Hu Hd. set (w1 := put w r (u, d)) in *.
      assert (E1 : w1 r = (u, d)) by (unfold w1, put; now rewrite Nat.eqb_refl).
      destruct (Hw w1 r) as (c & Ec & Hc & Tc & Hll & Ev); [now rewrite E1|]. rewrite E1 in Ev. cbn [snd] in Ev.
      destruct (Hrec u d c Hu Hd Ec Hc Tc) as [Hest Hr].
      replace (T d) with (2 * A * square G * P + (2 * A * square (F d - pvalue p mv) + D0))%R by (unfold T; ring).
      apply Hr; [apply Rmult_le_pos; [lra|apply square_nonneg]|]. intros w' Ha. specialize (Hest w' Ha). apply agree_put in Ha. destruct Ha as [_ Ha]. specialize (Hf w' Ha).
      rewrite <- Ev. set (e := exp (real_of (c_ll c j))) in *. rewrite Hest in Hf.
      pose proof (square_plus (e * (est' w' - value c f')) (e * value c f' - pvalue p mv)) as Q.
      replace (e * (est' w' - value c f') + (e * value c f' - pvalue p mv))%R with (e * est' w' - pvalue p mv)%R in Q by ring.
      assert (Q2 : (square (e * (est' w' - value c f')) <= square G * square (est' w' - value c f'))%R).
      { replace (square (e * (est' w' - value c f'))) with (square e * square (est' w' - value c f'))%R by (unfold square; ring).
        apply Rmult_le_compat_r; [apply square_nonneg|]. apply square_abs. rewrite Rabs_right by (left; apply exp_pos). exact Hll. }
      assert (Q3 : (A * square (e * est' w' - pvalue p mv) <= A * (2 * (square G * square (est' w' - value c f')) + 2 * square (e * value c f' - pvalue p mv)))%R)
        by (apply Rmult_le_compat_l; [exact HA|lra]).
      lra.
    - intros u _. apply at_most_affine; [exact HD|lra|exact HF].
    - apply (at_most_weaken LU _ (fun _ => (2 * A * (square (G * B) / (tau * INR n)) + (2 * A * square G * P + D0))%R)) with (1 := fun _ _ => Rle_refl _) (2 := at_most_const LU HU _). right. ring.
  Qed.

  Variable cf : fconf.
  Hypothesis Hevery : observe_every cf <> 0.
  Notation every := (observe_every cf).
  Variables (phi : X -> R) (B0 : R).
  Hypothesis HB0 : (0 <= B0)%R.
  Hypothesis Hphi : bounded phi B0.
  Notation expd := (expected move every phi).
  Notation kd := (SISR thr).

  (** The estimate times the last mean. *)
  Definition west (run : option (res (corr X * nat * list (corr X)))) : R := (estimate j run * last_mean lowest n j phi run)%R.
  Definition wpest (o : @oracle X (list xf)) (f1 f2 r : nat) (y : list xf) (ys : list (list xf)) (p : pred X) : R :=
    match advance lowest o kd cf f1 r p with
    | Some (Ok (q, r', _)) =>
        match settle lowest kd o r' y q with
        | Ok c => (exp (real_of (c_ll c j)) * west (batch_filter lowest o kd cf f2 (S r') ys c))%R
        | Raise _ => 0%R
        end
    | _ => 0%R
    end.
  Definition wsest (o : @oracle X (list xf)) (f1 f2 r : nat) (y : list xf) (ys : list (list xf)) (s : corr X) : R :=
    match predict lowest o kd r s with Ok p => wpest o f1 f2 (S r) y ys p | Raise _ => 0%R end.
  Lemma west_step (o : @oracle X (list xf)) f r y ys s : west (batch_filter lowest o kd cf f r (y :: ys) s) = wsest o f f r y ys s.
  Proof.
    unfold wsest, wpest, settle. cbn [batch_filter]. unfold filter_step, west.
    destruct (predict lowest o kd r s) as [p|]; [|cbn [estimate]; ring].
    destruct (advance lowest o kd cf f (S r) p) as [[[[q r'] l]|]|] eqn:Ea; [|cbn [estimate]; ring|cbn [estimate]; ring].
    destruct (if missing y then _ else _) as [c|]; [|cbn [estimate]; ring].
    destruct (batch_filter lowest o kd cf f (S r') ys c) as [[[[c' r''] l']|]|]; cbn [estimate last_mean]; [|ring|ring].
    rewrite !map_app, !Rsum_app, <- Rmult_assoc, <- exp_plus. do 2 f_equal. cbn [map].
    assert (E : Rsum (map (fun c => real_of (c_ll c j)) (if record_intermediary cf then l else [])) = 0%R) by (destruct (record_intermediary cf); [eapply advance_ll; eassumption|reflexivity]).
    rewrite E. unfold Rsum. cbn [fold_right]. ring.
  Qed.

  (** Bounds on expectations: a factor [G] for each move. *)
  Definition most (K : nat) : R := (G ^ K * B0)%R.
  Lemma most_S K : most (S K) = (G * most K)%R.
  Proof. unfold most. cbn [pow]. ring. Qed.
  Lemma most_pos K : (0 <= most K)%R.
  Proof. unfold most. apply Rmult_le_pos; [apply pow_le; lra|exact HB0]. Qed.
  Lemma hops_bound (w0 : filter_stream U D) m : forall t f K, hoppable move movable m t f -> bounded f (most K) -> bounded (hops move m t f) (most (m + K)).
  Proof.
    induction m as [|m IH]; intros t f K Hh Hf x Hx; cbn [hops Nat.add]; [now apply Hf|]. destruct Hh as [H1 H2]. rewrite most_S.
    apply (move_bound w0); [exact Hx|discriminate|exact H1|apply most_pos|]. now apply IH.
  Qed.
  Lemma seen_usable y : (seen y <> None -> usable y) -> forall y', seen y = Some y' -> usable y'.
  Proof. unfold seen. destruct (forallb _ y); [discriminate|]. intros H y' [= <-]. apply H. discriminate. Qed.
  Lemma expected_bound (w0 : filter_stream U D) ys : forall t, Forall (fun y => seen y <> None -> usable y) ys -> has_expected move movable every phi t (map seen ys) ->
    bounded (expd t (map seen ys)) (most (steps every t (map seen ys))).
  Proof.
    induction ys as [|y ys IH]; intros t Hy He x Hx; cbn [map expected steps].
    - unfold most. cbn [pow]. rewrite Rmult_1_l. now apply Hphi.
    - inversion_clear Hy as [|? ? Hy1 Hy2]. cbn [map has_expected] in He. destruct He as (H1 & H2 & H3).
      replace (until every t + 1 + steps every (S (t + until every t)) (map seen ys)) with (until every t + S (steps every (S (t + until every t)) (map seen ys))) by lia.
      apply (hops_bound w0); [exact H1| |exact Hx]. intros x' Hx'. rewrite most_S.
      apply (move_bound w0); [exact Hx'|now apply seen_usable|exact H2|apply most_pos|]. now apply IH.
  Qed.

  (** The mean square error: [sc K] from a corrected state with [K] moves to go, [pc K] from a prediction with [K] moves to go after the next. *)
  Definition pc_of (s : R) (K : nat) : R := (2 * square G * s + 2 * (square (G * most K) / (tau * INR n)))%R.
  Fixpoint sc (K : nat) : R :=
    match K with
    | 0 => 0%R
    | S K => (2 * pc_of (sc K) K + 2 * (kappa * square (most (S K)) / INR n))%R
    end.
  Definition pc (K : nat) : R := pc_of (sc K) K.
  Lemma div_pos x y : (0 <= x)%R -> (0 < y)%R -> (0 <= x / y)%R.
  Proof. intros Hx Hy. apply Rmult_le_pos; [exact Hx|]. left. now apply Rinv_0_lt_compat. Qed.
  Lemma sc_pos K : (0 <= sc K)%R.
  Proof.
    induction K as [|K IH]; cbn [sc]; [lra|]. unfold pc_of.
    pose proof (Rmult_le_pos _ _ (square_nonneg G) IH). pose proof (div_pos _ _ (square_nonneg (G * most K)) tau_pos).
    pose proof (div_pos _ _ (Rmult_le_pos _ _ Hkappa (square_nonneg (most (S K)))) INR_pos). lra.
  Qed.

  Definition state_error (ys : list (list xf)) : Prop := Forall (fun y => seen y <> None -> usable y) ys ->
    forall f2 k r s w f A D0, every <= f2 -> sok s ->
    has_expected move movable every phi (ts_time (c_x s)) (map seen ys) -> draws every (ts_time (c_x s)) (map seen ys) <= k -> (0 <= A)%R ->
    (forall w', agree r w w' -> (f w' <= A * square (west (batch_filter lowest (O w') kd cf f2 r ys s) - value s (expd (ts_time (c_x s)) (map seen ys))) + D0)%R) ->
    at_most_over LU LD k r f w (A * sc (steps every (ts_time (c_x s)) (map seen ys)) + D0)%R.

  Lemma pred_error y ys : (seen y <> None -> usable y) -> Forall (fun y => seen y <> None -> usable y) ys -> state_error ys -> forall m f1 f2 k r p w f A D0, every <= f2 -> pok p -> even p ->
    let t := ts_time (p_x p) in until every t = m -> m < f1 ->
    let g := move (t + m) (seen y) (expd (S (t + m)) (map seen ys)) in
    hoppable move movable m t g -> movable (t + m) (seen y) (expd (S (t + m)) (map seen ys)) ->
    has_expected move movable every phi (S (t + m)) (map seen ys) ->
    1 + 2 * m + draws every (S (t + m)) (map seen ys) <= k -> (0 <= A)%R ->
    (forall w', agree r w w' -> (f w' <= A * square (wpest (O w') f1 f2 r y ys p - pvalue p (hops move m t g)) + D0)%R) ->
    at_most_over LU LD k r f w (A * pc (m + steps every (S (t + m)) (map seen ys)) + D0)%R.
  Proof.
    intros Hy Hys IHys'. specialize (IHys' Hys) as IHys. clear IHys'. induction m as [|m IH]; intros f1 f2 k r p w f A D0 Hf2 Hp Hev t Hu Hf1 g Hh Hm Hl Hk HA Hest.
    - destruct k as [|k]; [lia|]. destruct f1 as [|f1]; [lia|]. cbn [hops] in Hest. unfold g in *. cbn [Nat.add] in *. replace (t + 0) with t in * by lia.
      set (K := steps every (S t) (map seen ys)). unfold pc, pc_of.
      pose proof (settle_error y p _ (most K) Hy Hp Hev Hm (expected_bound w ys (S t) Hys Hl)) as Hact. fold t in Hact.
      apply (pred_step p _ _ (most K) (fun o r => settle lowest kd o r y p) f (fun w' => wpest (O w') (S f1) f2 r y ys p)
        (fun w' => match settle lowest kd (O w') r y p with Ok c => west (batch_filter lowest (O w') kd cf f2 (S r) ys c) | Raise _ => 0%R end) k r w A D0 (sc K) (sc_pos K) Hact HA); [|exact Hest].
      intros u d c Hu' Hd Ec Hc Tc. set (w1 := put w r (u, d)) in *. fold t in Tc.
      assert (Es : forall w', agree (S r) w1 w' -> settle lowest kd (O w') r y p = Ok c).
      { intros w' Ha. apply agree_put in Ha. destruct Ha as [E2 Ha]. rewrite <- Ec. apply settle_local. rewrite E2. unfold w1, put. now rewrite Nat.eqb_refl. }
      split.
      + intros w' Ha. rewrite (Es w' Ha). unfold wpest. cbn [advance]. apply (until_0 n b j Hn Hj cf Hevery) in Hu.
        fold t. rewrite Hu. destruct (Nat.eqb_spec every 0); [contradiction|]. cbn [Nat.eqb]. now rewrite (Es w' Ha).
      + intros A' D' HA' Hf'. unfold K. rewrite <- Tc. apply (IHys f2); [exact Hf2|exact Hc|rewrite Tc; exact Hl|rewrite Tc; lia|exact HA'|].
        intros w' Ha. specialize (Hf' w' Ha). rewrite (Es w' Ha) in Hf'. rewrite Tc. exact Hf'.
    - destruct k as [|[|k]]; [lia|lia|]. destruct f1 as [|f1]; [lia|]. destruct Hh as [Hh1 Hh2]. cbn [hops] in Hest.
      destruct (until_S n b j Hn Hj cf Hevery t m Hu) as [Hmod Hu1].
      set (K := m + steps every (S (t + S m)) (map seen ys)).
      assert (Eg : g = move (S t + m) (seen y) (expd (S (S t + m)) (map seen ys))) by (unfold g; now replace (t + S m) with (S t + m) by lia).
      assert (Hbound : bounded (hops move m (S t) g) (most (S K))).
      { unfold K. replace (S (m + steps every (S (t + S m)) (map seen ys))) with (m + S (steps every (S (t + S m)) (map seen ys))) by lia.
        apply (hops_bound w); [exact Hh2|]. intros x Hx. rewrite most_S. unfold g. apply (move_bound w); [exact Hx|now apply seen_usable|exact Hm|apply most_pos|].
        now apply (expected_bound w). }
      change (S m + steps every (S (t + S m)) (map seen ys)) with (S K). unfold pc, pc_of.
      pose proof (create_error p _ (most (S K)) Hp Hev Hh1 Hbound) as Hact. fold t in Hact.
      apply (pred_step p _ _ (most (S K)) (fun o r => create_state lowest o r p) f (fun w' => wpest (O w') (S f1) f2 r y ys p)
        (fun w' => match create_state lowest (O w') r p with Ok c => wsest (O w') f1 f2 (S r) y ys c | Raise _ => 0%R end) (S k) r w A D0 (sc (S K)) (sc_pos (S K)) Hact HA); [|exact Hest].
      intros u d c Hu' Hd Ec Hc Tc. set (w1 := put w r (u, d)) in *. fold t in Tc.
      assert (Es : forall w', agree (S r) w1 w' -> create_state lowest (O w') r p = Ok c).
      { intros w' Ha. apply agree_put in Ha. destruct Ha as [E2 Ha]. rewrite <- Ec. apply create_local. rewrite E2. unfold w1, put. now rewrite Nat.eqb_refl. }
      split.
      + intros w' Ha. rewrite (Es w' Ha). unfold wpest, wsest. cbn [advance]. fold t. destruct (Nat.eqb_spec every 0); [contradiction|].
        destruct (Nat.eqb_spec (t mod every) 0); [contradiction|]. rewrite (Es w' Ha). rewrite (create_ll lowest j _ _ _ _ Ec). cbn [real_of]. rewrite exp_0, Rmult_1_l.
        destruct (predict lowest (O w') kd (S r) c) as [p'|]; [|reflexivity]. unfold wpest.
        destruct (advance lowest (O w') kd cf f1 (S (S r)) p') as [[[[q r'] l]|]|]; reflexivity.
      + intros A' D' HA' Hf'. cbn [sc]. fold (pc K).
        apply (state_step c (hops move m (S t) g) (most (S K)) f (fun w' => wsest (O w') f1 f2 (S r) y ys c) k (S r) w1 A' D' (pc K) Hc Hbound HA').
        2: { intros w' Ha. specialize (Hf' w' Ha). now rewrite (Es w' Ha) in Hf'. }
        intros u2 d2 p' Hu2 Hd2 Ep Hp' Hev' Tp A2 D2 HA2 Hf2'. set (w2 := put w1 (S r) (u2, d2)) in *.
        assert (Tp' : ts_time (p_x p') = S t) by congruence.
        unfold K. replace (S (t + S m)) with (S (S t + m)) by lia. replace (t + S m) with (S t + m) in * by lia. rewrite <- Tp'.
        apply (IH f1 f2); [exact Hf2|exact Hp'|exact Hev'|rewrite Tp'; exact Hu1|lia|rewrite Tp', <- Eg; exact Hh2|rewrite Tp'; exact Hm|rewrite Tp'; exact Hl|rewrite Tp'; lia|exact HA2|].
        intros w' Ha. specialize (Hf2' w' Ha). unfold wsest in Hf2'. apply agree_put in Ha. destruct Ha as [E3 Ha].
        rewrite (predict_local lowest C kd (S r) c w2 w') in Hf2' by (rewrite E3; unfold w2, put; now rewrite Nat.eqb_refl).
        rewrite Ep in Hf2'. rewrite Tp', <- Eg. exact Hf2'.
  Qed.

  Lemma state_errors ys : state_error ys.
  Proof.
    induction ys as [|y ys IH]; intros Hys f2 k r s w f A D0 Hf2 Hs Hl Hk HA Hest.
    - apply over_most_const; [exact HU|exact HD|]. intros w' Ha. specialize (Hest w' Ha). cbn [map steps sc expected] in *.
      assert (E : west (batch_filter lowest (O w') kd cf f2 r [] s) = value s phi).
      { unfold west. cbn [batch_filter estimate last_mean map]. unfold Rsum. cbn [fold_right]. rewrite exp_0, Rmult_1_l. reflexivity. }
      rewrite E in Hest. replace (value s phi - value s phi)%R with 0%R in Hest by ring. unfold square in Hest. lra.
    - inversion_clear Hys as [|z zs Hy Hys']. set (t := ts_time (c_x s)) in *. pose proof Hl as Hl0. cbn [map expected has_expected draws steps] in *. destruct Hl as (Hh & Hm & Hl). destruct k as [|k]; [lia|].
      set (m := until every t) in *. set (g := move (t + m) (seen y) (expd (S (t + m)) (map seen ys))) in *.
      replace (m + 1 + steps every (S (t + m)) (map seen ys)) with (S (m + steps every (S (t + m)) (map seen ys))) by lia.
      set (K := m + steps every (S (t + m)) (map seen ys)). cbn [sc]. fold (pc K).
      assert (Hbound : bounded (hops move m t g) (most (S K))).
      { unfold K. replace (S (m + steps every (S (t + m)) (map seen ys))) with (m + S (steps every (S (t + m)) (map seen ys))) by lia.
        apply (hops_bound w); [exact Hh|]. intros x Hx. rewrite most_S. unfold g. apply (move_bound w); [exact Hx|now apply seen_usable|exact Hm|apply most_pos|].
        now apply (expected_bound w). }
      apply (state_step s (hops move m t g) (most (S K)) f (fun w' => wsest (O w') f2 f2 r y ys s) k r w A D0 (pc K) Hs Hbound HA).
      2: { intros w' Ha. specialize (Hest w' Ha). now rewrite west_step in Hest. }
      intros u d p Hu Hd Ep Hp Hev Tp A' D' HA' Hf'. set (w1 := put w r (u, d)) in *. fold t in Tp. unfold K. rewrite <- Tp.
      apply (pred_error y ys Hy Hys' IH m f2 f2); rewrite ?Tp; try assumption; try reflexivity.
      + pose proof (until_small cf Hevery t). unfold m. lia.
      + lia.
      + intros w' Ha. specialize (Hf' w' Ha). unfold wsest in Hf'. apply agree_put in Ha. destruct Ha as [E2 Ha].
        rewrite (predict_local lowest C kd r s w1 w') in Hf' by (rewrite E2; unfold w1, put; now rewrite Nat.eqb_refl).
        rewrite Ep in Hf'. exact Hf'.
  Qed.

  (** With possible draws the states of a run are as they should be. *)
  Notation possible := (possible LU LD).
  Lemma predict_sok w r s p : possible w -> sok s -> predict lowest (O w) kd r s = Ok p -> pok p.
  Proof.
    intros Hw Hs E. destruct (predict_error r s (fun _ => 0%R) 0 Hs) as (F & _ & H); [intros; rewrite Rabs_R0; lra|].
    destruct (H w (proj1 (Hw r))) as (p' & E' & Hp & _). congruence.
  Qed.
  Lemma create_sok w r p c : possible w -> pok p -> create_state lowest (O w) r p = Ok c -> sok c.
  Proof.
    intros Hpw [Hp Hgood] E. pose proof Hp as [[Hx1 Hx2] _ _ _ _ _]. destruct (Hpw r) as [_ Hw].
    destruct (create_state_spec lowest (O w) r n b p Hn Hp (walk_ok LU LD C fr fp fx fw fg good usable Hsep w r Hw)) as (c' & Ec & Hc & Ex & _).
    rewrite E in Ec. injection Ec as <-. split; [exact Hc|]. destruct (sep_walk _ _ _ _ _ _ _ _ _ _ Hsep _ Hw (p_x p)) as (T & [S1 S2] & Hcol). cbn [at_stream propagate] in Ex.
    apply (fin_cols n b j Hn Hj). rewrite Ex. intros q Hq. rewrite Hcol by lia. apply (sep_walk_good _ _ _ _ _ _ _ _ _ _ Hsep); [exact Hw|]. apply good_col; [exact Hgood|lia].
  Qed.
  Lemma settle_sok w r y p c : (seen y <> None -> usable y) -> possible w -> pok p -> settle lowest kd (O w) r y p = Ok c -> sok c.
  Proof.
    intros Hy Hpw Hpp. rewrite seen_missing in Hy. unfold settle. destruct (missing y); [now apply create_sok|]. destruct Hpp as [Hp Hgood]. destruct (Hpw r) as [_ Hw].
    specialize (Hy ltac:(discriminate)). cbn [correct]. intros E.
    pose proof (fun v nv => saw_good LU LD C fr fp fx fw fg good usable Hsep n b j Hn Hj w r y (p_x p) v nv Hy Hw Hgood) as SG.
    destruct (sisr_correct_spec lowest (O w) r y n b p Hn Hp (prop_ok LU LD C fr fp fx fw fg good usable Hsep w r Hw) (proj2 (SG _ _))) as (c' & Ec & Hc & Ex & _).
    rewrite E in Ec. injection Ec as <-. split; [exact Hc|rewrite Ex; now apply SG].
  Qed.
  Lemma advance_pok w : possible w -> forall f r p q r' l, pok p -> advance lowest (O w) kd cf f r p = Some (Ok (q, r', l)) -> pok q.
  Proof.
    intros Hw. induction f as [|f IH]; intros r p q r' l Hp E; [discriminate|]. cbn [advance] in E. destruct (every =? 0); [discriminate|].
    destruct (_ mod _ =? 0); [injection E as <- <- <-; exact Hp|].
    destruct (create_state lowest (O w) r p) as [c|] eqn:Ec; [|discriminate]. destruct (predict lowest (O w) kd (S r) c) as [p'|] eqn:Ep; [|discriminate].
    destruct (advance lowest (O w) kd cf f (S (S r)) p') as [[[[q' r''] l']|]|] eqn:Ea; try discriminate. injection E as <- <- <-.
    apply (IH _ _ _ _ _ (predict_sok w _ c p' Hw (create_sok w _ p c Hw Hp Ec) Ep) Ea).
  Qed.
  Lemma run_sok w : possible w -> forall ys f r s c r' l, Forall (fun y => seen y <> None -> usable y) ys -> sok s ->
    batch_filter lowest (O w) kd cf f r ys s = Some (Ok (c, r', l)) -> sok c.
  Proof.
    intros Hw. induction ys as [|y ys IH]; intros f r s c r' l Hys Hs E; cbn [batch_filter] in E; [injection E as <- <- <-; exact Hs|].
    inversion_clear Hys as [|? ? Hy Hys']. unfold filter_step in E. destruct (predict lowest (O w) kd r s) as [p|] eqn:Ep; [|discriminate].
    destruct (advance lowest (O w) kd cf f (S r) p) as [[[[q r1] l1]|]|] eqn:Ea; try discriminate.
    change (if missing y then create_state lowest (O w) r1 q else correct lowest (O w) kd r1 y q) with (settle lowest kd (O w) r1 y q) in E.
    destruct (settle lowest kd (O w) r1 y q) as [c1|] eqn:Es; [|discriminate].
    destruct (batch_filter lowest (O w) kd cf f (S r1) ys c1) as [[[[c2 r2] l2]|]|] eqn:Eb; try discriminate. injection E as <- <- <-.
    apply (IH f (S r1) c1 c2 r2 l2 Hys'); [|exact Eb]. apply (settle_sok w r1 y q c1 Hy Hw); [|exact Es]. apply (advance_pok w Hw _ _ _ _ _ _ (predict_sok w r s p Hw Hs Ep) Ea).
  Qed.
  Lemma sok_weights s : sok s -> prob_vec (imp lowest (col (c_w s) j)) /\ length (imp lowest (col (c_w s) j)) = n.
  Proof.
    intros [Hs _]. split; [exact (W_prob lowest n b s j Hn Hs Hj)|]. destruct Hs as [_ [Hw _] _ _]. rewrite length_imp, length_col. exact Hw.
  Qed.
  Lemma mean_bound s : sok s -> (Rabs (filter_mean lowest n j phi s) <= B0)%R.
  Proof.
    intros Hs. destruct (sok_weights s Hs) as [HW LW]. destruct Hs as [Hs Hg]. destruct Hs as [[Hx1 Hx2] _ _ _]. unfold filter_mean. change (sum_below n) with (sumto n).
    set (P := imp lowest (col (c_w s) j)) in *.
    assert (A : forall i, i < n -> (Rabs (phi (m_get (ts_val (c_x s)) i j)) <= B0)%R) by (intros i Hi; apply Hphi, Hg; lia).
    assert (S1 : sumto n (fun i => B0 * nth i P 0)%R = B0) by (rewrite sumto_scal, <- LW, <- Rsum_nth, (proj2 HW); ring).
    assert (S2 : sumto n (fun i => - B0 * nth i P 0)%R = (- B0)%R) by (rewrite sumto_scal, <- LW, <- Rsum_nth, (proj2 HW); ring).
    assert (Hp : forall i, i < n -> (0 <= nth i P 0)%R) by (intros i Hi; apply HW, nth_In; lia).
    apply Rabs_le. split; [rewrite <- S2|rewrite <- S1]; apply sumto_le; intros i Hi; pose proof (proj1 (Rabs_le_between _ _) (A i Hi)) as Q; specialize (Hp i Hi); nra.
  Qed.

  (** The error is of order one over the number of particles. *)
  Lemma sc_rate K : (sc K <= INR K * (4 / tau + 2 * kappa) * (4 * square G) ^ K * square B0 / INR n)%R.
  Proof.
    pose proof INR_pos as Hn0. assert (HG2 : (1 <= square G)%R) by (unfold square; nra).
    induction K as [|K IH]; [cbn [sc INR]; unfold Rdiv; rewrite !Rmult_0_l; lra|]. cbn [sc]. unfold pc_of. rewrite <- most_S.
    set (c := (4 / tau + 2 * kappa)%R) in *. set (Q := (square B0 / INR n)%R).
    assert (Em : square (most (S K)) = ((square G) ^ S K * square B0)%R) by (unfold most, square; rewrite Rpow_mult_distr; ring).
    rewrite Em. set (q := square G) in *.
    replace (2 * (2 * q * sc K + 2 * (q ^ S K * square B0 / (tau * INR n))) + 2 * (kappa * (q ^ S K * square B0) / INR n))%R
      with (4 * q * sc K + c * (q ^ S K * Q))%R by (unfold c, Q; field; lra).
    assert (HQ : (0 <= Q)%R) by (unfold Q; apply div_pos; [apply square_nonneg|exact Hn0]).
    assert (Hc : (0 <= c)%R) by (unfold c; pose proof (div_pos 4 tau ltac:(lra) ltac:(lra)); lra).
    assert (Hq : (q ^ S K <= (4 * q) ^ S K)%R) by (apply pow_incr; lra).
    replace (INR (S K) * c * (4 * q) ^ S K * square B0 / INR n)%R with (4 * q * (INR K * c * (4 * q) ^ K * square B0 / INR n) + c * ((4 * q) ^ S K * Q))%R
      by (rewrite S_INR; unfold Q; cbn [pow]; field; lra).
    apply Rplus_le_compat; [apply Rmult_le_compat_l; [lra|exact IH]|]. apply Rmult_le_compat_l; [exact Hc|]. apply Rmult_le_compat_r; [exact HQ|exact Hq].
  Qed.
End Run.
