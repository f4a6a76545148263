(** The error of SISR with any threshold and of the auxiliary particle filter, averaged over the draws. *)
From Coq Require Import Reals List Bool Arith Lia Lra.
From Coquelicot Require Import Rcomplements.
From Verif.Model Require Import Base Xf Tensor Weights Particle FilterLoop.
From Verif.Spec Require Import WeightsSpec ResamplingSpec ParticleSpec LoopSpec UnbiasedSpec FairSpec ConvergeSpec AuxiliarySpec.
From Verif.Proofs Require Import WeightsProofs MomentsProofs ResamplingProofs ParticleProofs StepProofs UnbiasedProofs UnbiasedFilter ConvergeProofs ConvergeFilter.
Import ListNotations.
Local Open Scope nat_scope.

Lemma imp_shares lowest l i : Forall is_fin l -> i < length l -> nth i (imp lowest l) 0%R = shares l i.
Proof.
  intros Hl Hi. assert (E : l = map Fin (map real_of l)).
  { rewrite map_map. rewrite <- (map_id l) at 1. apply map_ext_in. intros v Hv. apply (proj1 (Forall_forall _ _) Hl) in Hv. destruct v; simpl in Hv; tauto. }
  rewrite E at 1. rewrite imp_fin, map_map. unfold shares. rewrite nth_normal. f_equal.
  now rewrite (nth_map' _ _ _ _ NaN).
Qed.

Section Run.
  Context {X U D : Type} (lowest : R) (LU : law (nat -> U)) (LD : law (nat -> D)) (HU : law_ok LU) (HD : law_ok LD) (PD : law_pos LD).
  Variable C : @chances X U D.
  Variables (fr : bool -> U -> list xf -> list nat) (fp : D -> nat -> list X -> list X)
    (fx : D -> list xf -> nat -> list X -> list xf -> list xf -> list X)
    (fw : D -> list xf -> nat -> list X -> list xf -> list xf -> list xf)
    (fg : nat -> list xf -> nat -> list X -> list xf).
  Variables (good : X -> Prop) (usable : list xf -> Prop).
  Hypothesis Hsep : separate LU LD C good usable fr fp fx fw fg.
  Variables (n b j : nat).
  Hypothesis Hn : 0 < n.
  Hypothesis Hj : j < b.
  Variables (kappa G : R).
  Hypothesis Hkappa : (0 <= kappa)%R.
  Hypothesis HG : (1 <= G)%R.
  Variables (move : nat -> option (list xf) -> (X -> R) -> X -> R) (movable : nat -> option (list xf) -> (X -> R) -> Prop).
  Hypothesis Hmove : fair_moves LD good n j move movable fp fx fw.
  Hypothesis Hsteady : steady_moves LD good usable G n j move movable fp fx fw.
  Variable dflt : X.
  Notation O := (at_stream C).
  Notation value := (value lowest n j).
  Notation pvalue := (pvalue lowest n j).
  Notation sok := (sok good n b).
  Notation pok := (pok lowest good n b).
  Notation bounded f B := (forall x, good x -> (Rabs (f x) <= B)%R).

  (** One over the effective sample size. *)
  Definition bulk (W : list R) : R := sumto n (fun i => square (nth i W 0%R)).
  Definition sq (s : corr X) : R := bulk (imp lowest (col (c_w s) j)).
  Definition pq (p : pred X) : R := bulk (imp lowest (col (p_w p) j)).
  Lemma n_pos : (0 < INR n)%R.
  Proof. apply lt_0_INR. exact Hn. Qed.
  Lemma sumto_const c : sumto n (fun _ => c) = (INR n * c)%R.
  Proof. clear. induction n as [|m IH]; [unfold sumto, Rsum; cbn; ring|]. rewrite sumto_S, IH, S_INR. ring. Qed.
  Lemma bulk_least W : prob_vec W -> length W = n -> (/ INR n <= bulk W)%R.
  Proof.
    intros HW LW. pose proof n_pos as Hn0.
    assert (E : sumto n (fun i => square (nth i W 0 - / INR n)%R) = (bulk W - / INR n)%R).
    { rewrite (sumto_ext n _ (fun i => square (nth i W 0) + (- (2 * / INR n) * nth i W 0 + square (/ INR n)))%R) by (intros; unfold square; ring).
      rewrite !sumto_plus. fold (bulk W). rewrite sumto_scal, sumto_const. rewrite <- LW at 2. rewrite <- Rsum_nth, (proj2 HW). unfold square. field. lra. }
    assert (0 <= sumto n (fun i => square (nth i W 0 - / INR n)))%R.
    { rewrite <- (Rmult_0_r (INR n)), <- sumto_const. apply sumto_le. intros. apply square_nonneg. }
    lra.
  Qed.
  Lemma pok_weights p : pok p -> prob_vec (imp lowest (col (p_w p) j)) /\ length (imp lowest (col (p_w p) j)) = n.
  Proof.
    intros [[[Hx1 Hx2] [Hw1 Hw2] Hf _ _ _] _]. split; [|rewrite length_imp, length_col; lia].
    apply imp_prob; [intros E; apply (f_equal (@length xf)) in E; rewrite length_col in E; simpl in E; lia|].
    intros z Hz. apply in_col in Hz. destruct Hz as (i & Hi & <-). specialize (Hf i j Hi ltac:(lia)). destruct (m_get (p_w p) i j); simpl in *; tauto.
  Qed.
  Lemma sq_least s : sok s -> (/ INR n <= sq s)%R.
  Proof. intros Hs. destruct (sok_weights lowest good n b j Hn Hj s Hs). now apply bulk_least. Qed.
  Lemma pq_least p : pok p -> (/ INR n <= pq p)%R.
  Proof. intros Hp. destruct (pok_weights p Hp). now apply bulk_least. Qed.

  Lemma sisr_predict_error thr r s f B : steady_resampling LU kappa n b fr -> sok s -> bounded f B ->
    exists F, at_most LU (fun u => square (F u - value s f)) (kappa * square B * sq s)%R /\
    forall w, supp LU (fst (w r)) -> exists p, predict lowest (O w) (SISR thr) r s = Ok p /\ pok p /\ (pq p <= sq s)%R /\
      ts_time (p_x p) = ts_time (c_x s) /\ pvalue p f = F (fst (w r)).
  Proof.
    intros Hres Hsok HB. pose proof (sq_least s Hsok) as Hleast. destruct Hsok as [Hs Hgood]. pose proof Hs as [[Hx1 Hx2] [Hw1 Hw2] He Hi]. pose proof n_pos as Hn0.
    assert (Hk2 : (0 <= kappa * square B)%R) by (apply Rmult_le_pos; [exact Hkappa|apply square_nonneg]).
    set (W := W lowest s j). assert (HW : prob_vec W) by (eapply W_prob; eassumption).
    assert (LW : length W = n) by (unfold W, StepProofs.W; rewrite length_imp, length_col; exact Hw1).
    set (pick u := fr true (u (rank (low lowest thr s) j)) (map Fin W)).
    exists (fun u => if low lowest thr s j then (/ INR n * Rsum (map (fun a => f (m_get (ts_val (c_x s)) a j)) (pick u)))%R else value s f).
    split.
    - apply (at_most_weaken LU _ _ (kappa * square B * / INR n)%R _ (fun _ _ => Rle_refl _)); [|now apply Rmult_le_compat_l].
      destruct (low lowest thr s j).
      + refine (Hres (rank (low lowest thr s) j) W (fun a => f (m_get (ts_val (c_x s)) a j)) B _ HW LW _).
        * eapply Nat.le_lt_trans; [apply (rank_le n b j Hn Hj)|exact Hj].
        * intros i Hi'. apply HB. apply Hgood; lia.
      + apply (at_most_weaken LU _ (fun _ => 0%R) 0%R); [intros; unfold square; lra|now apply at_most_const|].
        apply Rmult_le_pos; [exact Hk2|]. left. now apply Rinv_0_lt_compat.
    - intros w Hw. pose proof (res_ok LU LD C fr fp fx fw fg good usable Hsep n b j Hn Hj w r true Hw) as Hro.
      destruct (predict_ok lowest (O w) (SISR thr) r n b s Hn Hs Hro) as (p & Ep & Hp & Et).
      exists p. split; [exact Ep|].
      destruct (sisr_predict_spec lowest (O w) thr r n b s Hn Hs Hro) as (p' & Ep' & _ & [X1 X2] & _ & _ & _ & Hlow & Hhigh).
      cbn [predict] in Ep. rewrite Ep in Ep'. injection Ep' as <-.
      assert (Hgp : entries good (ts_val (p_x p))).
      { apply (fin_cols n b j Hn Hj). intros q Hq. rewrite X2 in Hq. destruct (low lowest thr s q) eqn:El; [|rewrite (proj1 (Hhigh q Hq El)); apply good_col; [exact Hgood|lia]].
        destruct Hlow as [Hz|(nw & sel & _ & _ & [[S1 S2] Hse] & Hall)]; [pose proof (rank_lt _ _ _ Hq El); lia|].
        destruct (Hall q Hq El) as (_ & E2 & _). rewrite E2. apply Forall_forall. intros v Hv. apply in_map_iff in Hv. destruct Hv as (a & <- & Ha).
        apply in_col in Ha. destruct Ha as (i & Hi' & <-). apply Hgood; [|lia]. rewrite Hx1. apply Hse; [exact Hi'|]. rewrite S2. now apply rank_lt. }
      split; [split; [exact Hp|exact Hgp]|]. unfold pq, UnbiasedFilter.pvalue, spread. destruct (low lowest thr s j) eqn:El.
      + destruct Hlow as [Hz|(nw & sel & [S1 S2] & Esel & [_ Hse] & Hall)]; [pose proof (rank_lt _ _ _ Hj El); lia|].
        destruct (Hall j Hj El) as (E1 & E2 & E3 & _).
        destruct (sep_resample _ _ _ _ _ _ _ _ _ _ Hsep w r true Hw nw ltac:(lia)) as (sel' & Esel' & [T1 T2] & _ & Hc).
        rewrite Esel in Esel'. injection Esel' as <-.
        assert (Hr : rank (low lowest thr s) j < m_cols nw) by (rewrite S2; now apply rank_lt).
        rewrite Hc, E1 in E2 by exact Hr. fold W in E2. change (fr true _ _) with (pick (fst (w r))) in E2.
        destruct (fr_valid LU LD C fr fp fx fw fg good usable Hsep n b j Hn Hj w (fst (w r)) (rank (low lowest thr s) j) (map Fin W) true Hw ltac:(now rewrite map_length)) as [_ Lp].
        fold (pick (fst (w r))) in Lp.
        assert (Ei : imp lowest (repeat (Fin 0) n) = repeat (/ INR n)%R n).
        { replace (repeat (Fin 0) n) with (map Fin (repeat 0%R n)) by now rewrite map_repeat'. rewrite imp_fin, map_repeat', exp_0. unfold normal.
          rewrite map_repeat'. f_equal. rewrite Rsum_repeat. field. lra. }
        rewrite E3, Ei. split; [|split; [exact Et|]].
        * unfold bulk. rewrite (sumto_ext n _ (fun i => square (/ INR n))) by (intros i Hi'; rewrite (nth_const n) by exact Hi'; reflexivity).
          rewrite sumto_const. replace (INR n * square (/ INR n))%R with (/ INR n)%R by (unfold square; field; lra). exact Hleast.
        * rewrite (sumto_ext n _ (fun i => / INR n * nth i (map (fun a => f (m_get (ts_val (c_x s)) a j)) (pick (fst (w r)))) 0)%R).
          { rewrite sumto_scal. f_equal. rewrite <- Lp at 1. rewrite <- (map_length (fun a => f (m_get (ts_val (c_x s)) a j))). now rewrite <- Rsum_nth. }
          intros i Hi'. rewrite (nth_const n) by exact Hi'. f_equal.
          rewrite (nth_map' _ _ _ _ 0) by now rewrite Lp. f_equal.
          rewrite <- (nth_col (ts_val (p_x p)) i j dflt) by lia. rewrite E2. now rewrite (nth_map' _ _ _ _ 0) by now rewrite Lp.
      + destruct (Hhigh j Hj El) as (E1 & E2 & _). rewrite E2. rewrite imp_sanitise by (apply col_clean; [exact He|lia]).
        split; [apply Rle_refl|split; [exact Et|]].
        apply sumto_ext. intros i Hi'. do 2 f_equal. apply col_eq_get; [exact E1|lia|lia].
  Qed.
  Lemma apf_predict_error r s f B : sok s -> bounded f B ->
    exists F, at_most LU (fun u => square (F u - value s f)) (kappa * square B * sq s)%R /\
    forall w, supp LU (fst (w r)) -> exists p, predict lowest (O w) APF r s = Ok p /\ pok p /\ (pq p <= sq s)%R /\
      ts_time (p_x p) = ts_time (c_x s) /\ pvalue p f = F (fst (w r)).
  Proof.
    intros Hsok HB. pose proof (sq_least s Hsok) as Hleast. destruct Hsok as [Hs Hgood]. pose proof Hs as [[Hx1 Hx2] [Hw1 Hw2] He Hi]. pose proof n_pos as Hn0.
    exists (fun _ => value s f). split.
    - apply (at_most_weaken LU _ (fun _ => 0%R) 0%R); [intros; unfold square; lra|now apply at_most_const|].
      assert (0 < / INR n)%R by now apply Rinv_0_lt_compat. apply Rmult_le_pos; [apply Rmult_le_pos; [exact Hkappa|apply square_nonneg]|lra].
    - intros w Hw. destruct (predict_ok lowest (O w) APF r n b s Hn Hs (res_ok LU LD C fr fp fx fw fg good usable Hsep n b j Hn Hj w r true Hw)) as (p & Ep & Hp & Et).
      exists p. split; [exact Ep|].
      cbn [predict] in Ep. unfold apf_predict in Ep.
      destruct (normalize_mat_spec lowest n b (c_w s) Hn (conj Hw1 Hw2) He) as (nw & N & _). rewrite N in Ep. cbn [bind] in Ep. injection Ep as <-.
      assert (E : imp lowest (col (map_mat (nan_to_num lowest) (c_w s)) j) = imp lowest (col (c_w s) j)).
      { rewrite col_map_mat, imp_sanitise; [reflexivity|]. apply col_clean; [exact He|lia]. }
      split; [split; [exact Hp|exact Hgood]|]. unfold pq, sq, UnbiasedFilter.pvalue, UnbiasedFilter.value, spread. cbn [p_w p_x]. rewrite E.
      split; [apply Rle_refl|]. split; [exact Et|reflexivity].
  Qed.

  (** What one move does: the error it adds, and how the effective sample size and the likelihood factor go together. *)
  Definition step_error (p : pred X) (mv f : X -> R) (B : R) (act : @oracle X (list xf) -> nat -> res (corr X)) : Prop :=
    exists F H, (forall u, supp LU u -> at_most LD (fun d => square (F u d - H u)) (square (G * B) * pq p)%R) /\
    at_most LU (fun u => square (H u - pvalue p mv)) (kappa * square (G * B) * pq p)%R /\
    forall w r, supp LU (fst (w r)) -> supp LD (snd (w r)) -> exists c, act (O w) r = Ok c /\ sok c /\
      ts_time (c_x c) = S (ts_time (p_x p)) /\ (square (exp (real_of (c_ll c j))) * sq c <= square G * pq p)%R /\
      (exp (real_of (c_ll c j)) * value c f)%R = F (fst (w r)) (snd (w r)).
  Lemma extra p B : pok p -> (0 <= kappa * square (G * B) * pq p)%R.
  Proof.
    intros Hp. pose proof (pq_least p Hp). assert (0 < / INR n)%R by apply Rinv_0_lt_compat, n_pos.
    apply Rmult_le_pos; [apply Rmult_le_pos; [exact Hkappa|apply square_nonneg]|lra].
  Qed.
  Lemma alone_error p mv f B act : pok p ->
    (exists F, at_most LD (fun d => square (F d - pvalue p mv)) (square (G * B) * pq p)%R /\
      forall w r, supp LD (snd (w r)) -> exists c, act (O w) r = Ok c /\ sok c /\
      ts_time (c_x c) = S (ts_time (p_x p)) /\ (square (exp (real_of (c_ll c j))) * sq c <= square G * pq p)%R /\
      (exp (real_of (c_ll c j)) * value c f)%R = F (snd (w r))) -> step_error p mv f B act.
  Proof.
    intros Hp (F & HF & Hw). exists (fun _ => F), (fun _ => pvalue p mv). split; [intros u _; exact HF|]. split.
    - apply (at_most_weaken LU _ (fun _ => 0%R) 0%R); [intros; unfold square; lra|now apply at_most_const|now apply extra].
    - intros w r _ Hd. now apply Hw.
  Qed.
  Lemma create_any p f B : pok p -> movable (ts_time (p_x p)) None f -> bounded f B -> step_error p (move (ts_time (p_x p)) None f) f B (fun o r => create_state lowest o r p).
  Proof.
    intros Hpok Hm HB. apply alone_error; [exact Hpok|]. pose proof (pq_least p Hpok) as Hpq.
    destruct Hpok as [Hp Hgood]. pose proof Hp as [[Hx1 Hx2] [Hw1 Hw2] Hf _ _ _]. set (t := ts_time (p_x p)) in *. set (xs := col (ts_val (p_x p)) j).
    set (W := imp lowest (col (p_w p) j)). assert (H0 : (0 < / INR n)%R) by apply Rinv_0_lt_compat, n_pos.
    assert (HG2 : (1 <= square G)%R) by (unfold square; nra).
    exists (fun d => sumto n (fun i => nth i W 0 * f (nth i (fp (d j) t xs) dflt))%R). split.
    - assert (Lx : length xs = n) by (unfold xs; now rewrite length_col).
      assert (Gx : Forall good xs) by (unfold xs; apply good_col; [exact Hgood|lia]).
      pose proof (steady_walk _ _ _ _ _ _ _ _ _ _ _ Hsteady t xs f B (fun i => nth i W 0%R) dflt Lx Gx Hm HB) as H.
      apply (at_most_weaken LD) with (2 := H).
      + intros d Hd. right. f_equal. unfold UnbiasedFilter.pvalue, spread. fold W. f_equal. apply (sumto_ext n). intros i Hi.
        unfold xs. rewrite nth_col by lia. reflexivity.
      + change (sum_below n (fun i => square (nth i W 0%R))) with (pq p). rewrite Rmult_comm. apply Rmult_le_compat_r; [lra|].
        replace (square (G * B)) with (square G * square B)%R by (unfold square; ring). pose proof (square_nonneg B). nra.
    - intros w r Hw. destruct (create_state_spec lowest (O w) r n b p Hn Hp (walk_ok LU LD C fr fp fx fw fg good usable Hsep w r Hw)) as (c & Ec & Hc & Ex & _ & El & Ew).
      destruct (sep_walk _ _ _ _ _ _ _ _ _ _ Hsep _ Hw (p_x p)) as (T & [S1 S2] & Hcol). cbn [at_stream propagate] in Ex.
      exists c. split; [exact Ec|]. split; [split; [exact Hc|]|].
      { apply (fin_cols n b j Hn Hj). rewrite Ex. intros q Hq. rewrite Hcol by lia. apply (sep_walk_good _ _ _ _ _ _ _ _ _ _ Hsep); [exact Hw|]. apply good_col; [exact Hgood|lia]. }
      rewrite Ex. split; [exact T|]. rewrite El. cbn [real_of]. rewrite exp_0. split.
      { unfold sq. rewrite (Ew j Hj). fold (pq p). unfold square at 1. nra. }
      rewrite Rmult_1_l.
      unfold UnbiasedFilter.value, spread. rewrite (Ew j Hj). fold W. apply sumto_ext. intros i Hi. do 2 f_equal. rewrite Ex.
      rewrite <- (nth_col (ts_val (walk C (snd (w r)) (p_x p))) i j dflt) by lia. now rewrite Hcol by lia.
  Qed.

  (** Weights and likelihood factor together. *)
  Lemma corrected_bulk (c : corr X) (T : list R) S : (0 < S)%R -> c_ll c j = Fin (ln S) -> imp lowest (col (c_w c) j) = normal T -> (0 < Rsum T)%R ->
    (square (exp (real_of (c_ll c j))) * sq c = sumto n (fun i => square (S / Rsum T * nth i T 0)))%R.
  Proof.
    intros HS El Ei HT. rewrite El. cbn [real_of]. rewrite exp_ln by exact HS. unfold sq, bulk. rewrite Ei, <- sumto_scal.
    apply sumto_ext. intros i Hi. rewrite nth_normal. unfold square. field. lra.
  Qed.
  Lemma square_le x y : (0 <= x <= y)%R -> (square x <= square y)%R.
  Proof. unfold square. intros. nra. Qed.

  Lemma sisr_any thr y p f B : usable y -> pok p -> movable (ts_time (p_x p)) (Some y) f -> bounded f B ->
    step_error p (move (ts_time (p_x p)) (Some y) f) f B (fun o r => correct lowest o (SISR thr) r y p).
  Proof.
    intros Hy Hpok Hm HB. apply alone_error; [exact Hpok|]. pose proof (pok_weights p Hpok) as [HW LW].
    destruct Hpok as [Hp Hgood]. pose proof Hp as [[Hx1 Hx2] [Hw1 Hw2] Hf _ _ _]. set (t := ts_time (p_x p)) in *. set (xs := col (ts_val (p_x p)) j).
    assert (Lx : length xs = n) by (unfold xs; now rewrite length_col).
    assert (Gx : Forall good xs) by (unfold xs; apply good_col; [exact Hgood|lia]).
    set (W := imp lowest (col (p_w p) j)) in *.
    set (v d := fw (d j) y t xs (col (p_w p) j) (col (p_nw p) j)). set (x' d := fx (d j) y t xs (col (p_w p) j) (col (p_nw p) j)).
    exists (fun d => sumto n (fun i => nth i W 0 * (exp (real_of (nth i (v d) NaN)) * f (nth i (x' d) dflt)))%R). split.
    - pose proof (steady_propose _ _ _ _ _ _ _ _ _ _ _ Hsteady y t xs (col (p_w p) j) (col (p_nw p) j) f B (fun i => nth i W 0%R) dflt Hy Lx Gx Hm HB) as H.
      apply (at_most_weaken LD) with (2 := H).
      + intros d Hd. right. f_equal. unfold UnbiasedFilter.pvalue, spread. fold W. f_equal. apply (sumto_ext n). intros i Hi.
        unfold xs. rewrite nth_col by lia. reflexivity.
      + right. apply Rmult_comm.
    - intros w r Hw. cbn [correct].
      pose proof (fun v nv => saw_good LU LD C fr fp fx fw fg good usable Hsep n b j Hn Hj w r y (p_x p) v nv Hy Hw Hgood) as SG.
      destruct (sisr_correct_spec lowest (O w) r y n b p Hn Hp (prop_ok LU LD C fr fp fx fw fg good usable Hsep w r Hw) (proj2 (SG _ _))) as (c & Ec & Hc & Ex & _ & Hcol).
      destruct (sep_propose _ _ _ _ _ _ _ _ _ _ Hsep w r Hw y (p_x p) (p_w p) (p_nw p)) as (T & [S1 S2] & [S3 S4] & Hcs).
      destruct (Hcs j ltac:(lia)) as [C1 C2]. destruct (Hcol j Hj) as (Hpos & Ell & _ & _ & Ei).
      exists c. split; [exact Ec|]. split; [split; [exact Hc|rewrite Ex; now apply SG]|]. rewrite Ex. split; [exact T|].
      set (vm := snd (sample_and_weight (O w) r y (p_x p) (p_w p) (p_nw p))) in *.
      assert (En : forall i, i < n -> nth i (tilt W (reals vm j)) 0%R = (nth i W 0 * exp (real_of (nth i (v (snd (w r))) NaN)))%R).
      { intros i Hi. rewrite nth_tilt by (unfold W; rewrite length_imp, length_col, length_reals; lia). rewrite nth_reals by lia.
        rewrite <- (nth_col vm i j NaN) by lia. rewrite C2. reflexivity. }
      split.
      + rewrite (corrected_bulk c _ _ Hpos Ell Ei Hpos). unfold pq, bulk. rewrite <- sumto_scal. apply sumto_le. intros i Hi. fold W. rewrite En by exact Hi.
        fold W in Hpos. set (S0 := Rsum _) in *. replace (S0 / S0)%R with 1%R by (field; lra). rewrite Rmult_1_l.
        replace (square G * square (nth i W 0%R))%R with (square (nth i W 0 * G)%R) by (unfold square; ring). apply square_le.
        assert (P0 : (0 <= nth i W 0)%R) by (apply HW; apply nth_In; lia).
        pose proof (steady_weights _ _ _ _ _ _ _ _ _ _ _ Hsteady (snd (w r)) y t xs (col (p_w p) j) (col (p_nw p) j) i Hw Hy Lx Gx Hi) as Q. fold (v (snd (w r))) in Q.
        pose proof (exp_pos (real_of (nth i (v (snd (w r))) NaN))). split; [apply Rmult_le_pos; lra|]. apply Rmult_le_compat_l; lra.
      + rewrite (corrected_value lowest n j c _ _ f Hpos Ell Ei Hpos). apply sumto_ext. intros i Hi. rewrite Ex. fold W. rewrite En by exact Hi.
        rewrite <- (nth_col (ts_val (fst (sample_and_weight (O w) r y (p_x p) (p_w p) (p_nw p)))) i j dflt) by lia. rewrite C1.
        fold t xs. fold (x' (snd (w r))). field. fold W in Hpos. lra.
  Qed.

  (** The auxiliary particle filter. *)
  Variables (P H : R) (ahead : list xf -> nat -> X -> R).
  Definition looks : Prop := steady_choice LU kappa n b fr /\ steady_ahead LD good usable P H n j move movable fx fw fg ahead /\ (0 <= H /\ P * H <= G)%R.

  Lemma apf_any (w0 : filter_stream U D) y p f B : looks -> usable y -> pok p -> movable (ts_time (p_x p)) (Some y) f -> (0 <= B)%R -> bounded f B ->
    step_error p (move (ts_time (p_x p)) (Some y) f) f B (fun o r => correct lowest o APF r y p).
  Proof.
    intros (Hres & Hahead & H0 & HPH) Hy Hpok Hm HB0 HB. pose proof (pok_weights p Hpok) as [HW LW]. pose proof (pq_least p Hpok) as Hpq.
    destruct Hpok as [Hp Hgood]. pose proof Hp as [[Hx1 Hx2] [Hw1 Hw2] Hf _ _ _]. set (t := ts_time (p_x p)) in *. pose proof n_pos as Hn0.
    assert (Hn' : (0 < / INR n)%R) by now apply Rinv_0_lt_compat.
    set (W := imp lowest (col (p_w p) j)) in *.
    set (gm := look C y (p_x p)). set (Z := zip_mat xadd gm (p_w p)). set (g := reals gm j).
    destruct (sep_look _ _ _ _ _ _ _ _ _ _ Hsep y (p_x p)) as [[Hg1 Hg2] Lk]. fold gm in Hg1, Hg2, Lk. rewrite Hx1 in Hg1. rewrite Hx2 in Hg2, Lk.
    assert (Hgf : entries is_fin gm).
    { apply (fin_cols n b j Hn Hj). intros k Hk. rewrite Lk by lia. apply (sep_look_good _ _ _ _ _ _ _ _ _ _ Hsep); [exact Hy|]. apply good_col; [exact Hgood|lia]. }
    assert (Hg : forall i, i < n -> nth i g 0%R = ahead y t (m_get (ts_val (p_x p)) i j)).
    { intros i Hi. unfold g, reals. rewrite (Lk j Hj). rewrite (ahead_look _ _ _ _ _ _ _ _ _ _ _ _ _ Hahead y _ _ Hy) by (apply good_col; [exact Hgood|lia]).
      rewrite map_map. cbn [real_of]. rewrite (nth_map' _ _ _ _ dflt) by (rewrite length_col; lia). now rewrite nth_col by lia. }
    assert (HZ : Forall is_fin (col Z j)).
    { apply Forall_forall. intros q Hq. apply in_col in Hq. destruct Hq as (i & Hi & <-). unfold Z in *. cbn [zip_mat m_get m_rows] in *.
      specialize (Hgf i j Hi ltac:(lia)). specialize (Hf i j ltac:(lia) ltac:(lia)). destruct (m_get gm i j), (m_get (p_w p) i j); simpl in *; tauto. }
    assert (LZ : length (col Z j) = n) by (rewrite length_col; exact Hg1).
    assert (Htilt : (0 < Rsum (tilt W g))%R /\ imp lowest (col Z j) = normal (tilt W g)).
    { assert (Eg : col gm j = map Fin g) by (apply col_fin; [exact Hgf|lia]).
      assert (Ew : col (p_w p) j = map Fin (reals (p_w p) j)) by (apply col_fin; [exact Hf|lia]).
      unfold Z, W. rewrite zip_col by lia. rewrite Eg, Ew, combine_map_l, combine_map_r, !map_map. cbn [fst snd xadd].
      apply tilt_imp; [unfold g; rewrite !length_reals; lia|]. eapply nonempty_len; [apply length_reals|lia]. }
    destruct Htilt as [HS Hnormal]. set (S0 := Rsum (tilt W g)) in *.
    assert (Lg : length W = length g) by (unfold g; rewrite length_reals; lia).
    assert (Hx : forall i, i < n -> good (m_get (ts_val (p_x p)) i j)) by (intros i Hi; apply Hgood; lia).
    assert (Wpos : forall i, i < n -> (0 <= nth i W 0)%R) by (intros i Hi; apply HW, nth_In; lia).
    assert (W1 : sumto n (fun i => nth i W 0%R) = 1%R) by (rewrite <- LW at 1; rewrite <- Rsum_nth; apply HW).
    assert (HSP : (S0 <= P)%R).
    { unfold S0. rewrite Rsum_nth, (length_tilt n b j Hn Hj) by exact Lg. rewrite LW. apply Rle_trans with (sumto n (fun i => P * nth i W 0)%R); [|rewrite sumto_scal, W1; lra].
      apply sumto_le. intros i Hi. rewrite nth_tilt by exact Lg. rewrite Rmult_comm. apply Rmult_le_compat_r; [now apply Wpos|]. rewrite Hg by exact Hi.
      apply (ahead_most _ _ _ _ _ _ _ _ _ _ _ _ _ Hahead); [exact Hy|now apply Hx]. }
    set (a u := fr false (u j) (col Z j)). set (xs u := map (fun i => m_get (ts_val (p_x p)) i j) (a u)).
    set (zs := repeat (Fin 0) n). set (us := repeat (Fin (/ INR n)) n).
    set (v (u : nat -> U) (d : nat -> D) := fw (d j) y t (xs u) zs us). set (x' (u : nat -> U) (d : nat -> D) := fx (d j) y t (xs u) zs us).
    set (k := (S0 * / INR n)%R).
    assert (Ha : forall u, supp LU u -> Forall (fun q => q < n) (a u) /\ length (a u) = n) by (intros u Hu; exact (fr_valid LU LD C fr fp fx fw fg good usable Hsep n b j Hn Hj w0 u j _ false Hu LZ)).
    assert (La : forall u, supp LU u -> length (a u) = n) by (intros u Hu; now apply Ha).
    assert (Ia : forall u i, supp LU u -> i < n -> nth i (a u) 0 < n).
    { intros u i Hu Hi. destruct (Ha u Hu) as [H1 H2]. apply (proj1 (Forall_forall _ _) H1), nth_In. lia. }
    assert (Lxs : forall u, supp LU u -> length (xs u) = n) by (intros u Hu; unfold xs; rewrite map_length; now apply La).
    assert (Gx : forall u, supp LU u -> Forall good (xs u)).
    { intros u Hu. apply Forall_forall. intros z Hv. apply in_map_iff in Hv. destruct Hv as (q & <- & Hq). apply Hx.
      exact (proj1 (Forall_forall _ _) (proj1 (Ha u Hu)) q Hq). }
    assert (Exs : forall u i, supp LU u -> i < n -> nth i (xs u) dflt = m_get (ts_val (p_x p)) (nth i (a u) 0) j).
    { intros u i Hu Hi. unfold xs. rewrite (nth_map' _ _ _ _ 0); [reflexivity|]. rewrite (La u Hu). lia. }
    set (term i := (exp (- nth i g 0) * move t (Some y) f (m_get (ts_val (p_x p)) i j))%R).
    (** The importance weights relative to the look-ahead weights. *)
    assert (Hrel : forall u d i, supp LU u -> supp LD d -> i < n -> (exp (- nth (nth i (a u) 0%nat) g 0) * exp (real_of (nth i (v u d) NaN)) <= H)%R).
    { intros u d i Hu Hd Hi. rewrite Hg by now apply Ia. rewrite <- (Exs u i Hu Hi), exp_Ropp.
      pose proof (ahead_weights _ _ _ _ _ _ _ _ _ _ _ _ _ Hahead d y t (xs u) zs us i dflt Hd Hy (Lxs u Hu) (Gx u Hu) Hi) as Q. fold (v u d) in Q.
      set (e := exp (ahead _ _ _)) in *. assert (0 < e)%R by apply exp_pos. apply (Rmult_le_reg_l e); [assumption|]. rewrite <- Rmult_assoc, Rinv_r, Rmult_1_l by lra. lra. }
    assert (HB' : forall i, i < n -> (Rabs (term i) <= H * B)%R).
    { intros i Hi. set (ys := repeat (m_get (ts_val (p_x p)) i j) n). assert (Ly : length ys = n) by apply repeat_length.
      assert (Gy : Forall good ys) by (apply Forall_forall; intros z Hz; apply repeat_spec in Hz; subst z; now apply Hx).
      assert (Ey : nth 0 ys dflt = m_get (ts_val (p_x p)) i j) by (apply (repeat_spec n (m_get (ts_val (p_x p)) i j)), nth_In; rewrite repeat_length; exact Hn).
      unfold term. rewrite Hg by exact Hi. rewrite <- Ey. set (e := ahead y t (nth 0 ys dflt)).
      pose proof (averages_scal LD HD (exp (- e)) _ _ (proj2 Hmove y t ys zs us 0 f dflt Ly Gy Hn Hm)) as Hav.
      apply (averages_bound LD HD PD _ _ (H * B)%R Hav). intros d Hd.
      assert (Gf : (Rabs (f (nth 0 (fx (d j) y t ys zs us) dflt)) <= B)%R).
      { apply HB. destruct (sep_propose_good _ _ _ _ _ _ _ _ _ _ Hsep d j y t ys zs us Hd Hy Gy) as [G1 _].
        set (xm := TS t (Mat n (S j) (fun i' _ => nth i' ys dflt))). set (zm := Mat n (S j) (fun i' _ => nth i' zs NaN)). set (um := Mat n (S j) (fun i' _ => nth i' us NaN)).
        destruct (sep_propose _ _ _ _ _ _ _ _ _ _ Hsep (fun r => (fst (w0 r), d)) 0 Hd y xm zm um) as (_ & [L1 L2] & _ & Hc).
        destruct (Hc j ltac:(cbn; lia)) as [Hc1 _]. cbn [fst snd] in Hc1.
        assert (E1 : col (ts_val xm) j = ys) by (unfold xm; cbn [ts_val]; apply (col_of_list n (S j) (fun _ => ys) dflt j Ly)).
        assert (E2 : col zm j = zs) by (unfold zm; apply (col_of_list n (S j) (fun _ => zs) NaN j (repeat_length _ _))).
        assert (E3 : col um j = us) by (unfold um; apply (col_of_list n (S j) (fun _ => us) NaN j (repeat_length _ _))).
        rewrite E1, E2, E3 in Hc1. cbn [xm ts_time] in Hc1.
        apply (proj1 (Forall_forall _ _) G1), nth_In. rewrite <- Hc1, length_col, L1. exact Hn. }
      pose proof (ahead_weights _ _ _ _ _ _ _ _ _ _ _ _ _ Hahead d y t ys zs us 0 dflt Hd Hy Ly Gy Hn) as Q. fold e in Q.
      rewrite <- Rmult_assoc, Rabs_mult. apply Rmult_le_compat; [apply Rabs_pos|apply Rabs_pos| |exact Gf].
      rewrite Rabs_right by (left; apply Rmult_lt_0_compat; apply exp_pos). rewrite exp_Ropp.
      assert (0 < exp e)%R by apply exp_pos. apply (Rmult_le_reg_l (exp e)); [assumption|]. rewrite <- Rmult_assoc, Rinv_r, Rmult_1_l by lra. lra. }
    assert (HkG : (0 <= k * H)%R /\ (INR n * (k * H) <= G)%R).
    { unfold k. split; [apply Rmult_le_pos; [apply Rmult_le_pos|]; lra|].
      replace (INR n * (S0 * / INR n * H))%R with (S0 * H)%R by (field; lra). apply Rle_trans with (P * H)%R; [now apply Rmult_le_compat_r|exact HPH]. }
    assert (HG0 : forall c, (0 <= c)%R -> (INR n * square (k * H * c) <= square (G * c) * pq p)%R).
    { intros c Hc. destruct HkG as [K1 K2]. apply Rle_trans with (square (G * c) * / INR n)%R; [|apply Rmult_le_compat_l; [apply square_nonneg|exact Hpq]].
      replace (INR n * square (k * H * c))%R with (square (INR n * (k * H) * c) * / INR n)%R by (unfold square; field; lra).
      apply Rmult_le_compat_r; [lra|]. apply square_le. split; [|now apply Rmult_le_compat_r].
      apply Rmult_le_pos; [apply Rmult_le_pos; lra|exact Hc]. }
    exists (fun u d => sumto n (fun i => k * exp (- nth (nth i (a u) 0%nat) g 0) * (exp (real_of (nth i (v u d) NaN)) * f (nth i (x' u d) dflt)))%R),
      (fun u => k * Rsum (map term (a u)))%R.
    split; [|split].
    - intros u Hu.
      pose proof (ahead_propose _ _ _ _ _ _ _ _ _ _ _ _ _ Hahead y t (xs u) zs us f B (fun i => k * exp (- nth (nth i (a u) 0%nat) g 0))%R dflt Hy (Lxs u Hu) (Gx u Hu) Hm HB) as Q.
      apply (at_most_weaken LD) with (2 := Q).
      + intros d Hd. right. f_equal. f_equal. rewrite <- (sumto_map n b j Hn Hj term (a u) (La u Hu)), <- sumto_scal. apply (sumto_ext n). intros i Hi.
        unfold term. cbn beta. rewrite (Exs u i Hu Hi). ring.
      + apply Rle_trans with (INR n * square (k * H * B))%R; [|now apply HG0]. right.
        change (sum_below n) with (sumto n). rewrite (sumto_ext n _ (fun _ => square (k * H))%R); [rewrite sumto_const; unfold square; ring|].
        intros i Hi. f_equal. rewrite (Exs u i Hu Hi), Hg by now apply Ia. rewrite exp_Ropp. field.
        set (z := ahead _ _ _). pose proof (exp_pos z). lra.
    - pose proof (Hres j (col Z j) term (H * B)%R Hj HZ LZ HB') as Q. pose proof (at_most_affine LU HU (square S0) 0 _ _ (square_nonneg S0) Q) as Q'.
      apply (at_most_weaken LU) with (2 := Q').
      + intros u Hu. right. change (sum_below n) with (sumto n).
        assert (E : pvalue p (move t (Some y) f) = (S0 * sumto n (fun i => shares (col Z j) i * term i))%R).
        { unfold UnbiasedFilter.pvalue, spread. fold W. rewrite <- sumto_scal. apply sumto_ext. intros i Hi. unfold term.
          rewrite <- (imp_shares lowest) by (try exact HZ; lia). rewrite Hnormal, nth_normal, nth_tilt by exact Lg. fold S0. rewrite exp_Ropp.
          field. split; [|lra]. pose proof (exp_pos (nth i g 0%R)). lra. }
        fold t. rewrite E. fold (a u). unfold k, square. ring.
      + rewrite Rplus_0_r. destruct HkG as [K1 K2]. pose proof (HG0 B HB0) as Q2. 
        apply Rle_trans with (kappa * (INR n * square (k * H * B)))%R.
        * right. unfold k, square. field. lra.
        * rewrite (Rmult_assoc kappa (square (G * B))). apply Rmult_le_compat_l; [exact Hkappa|exact Q2].
    - intros w r Hu Hd. cbn [correct].
      assert (Eg : pre_weight (O w) y (p_x p) = gm) by reflexivity.
      destruct (apf_correct_explicit lowest (O w) r y n b p Hn Hp (prop_ok LU LD C fr fp fx fw fg good usable Hsep w r Hd) (look_ok LU LD C fr fp fx fw fg good usable Hsep w)
          (res_ok LU LD C fr fp fx fw fg good usable Hsep n b j Hn Hj w r false Hu) Hgf)
        as (anc & par & zeros & unif & Er & _ & _ & [[A1 A2] Hae] & Tp & [P1 P2] & _ & _ & Hcols & Hfin).
      assert (Gpar : entries good (ts_val par)).
      { apply (fin_cols n b j Hn Hj). intros q Hq. rewrite P2 in Hq. destruct (Hcols q Hq) as (_ & _ & -> & _). apply Forall_forall. intros z Hv. apply in_map_iff in Hv.
        destruct Hv as (a' & <- & Ha'). apply in_col in Ha'. destruct Ha' as (i & Hi & <-). apply Hgood; [|lia]. rewrite Hx1. apply Hae; lia. }
      pose proof (fun v nv => saw_good LU LD C fr fp fx fw fg good usable Hsep n b j Hn Hj w r y par v nv Hy Hd Gpar) as SG.
      destruct (Hfin (proj2 (SG _ _))) as (c & Ec & Hc & Ex & _ & Hwf & Hcol). clear Hfin.
      destruct (Hcols j Hj) as (_ & _ & Epar & Ezeros & Eunif).
      rewrite Eg in *. fold Z in Er.
      destruct (sep_resample _ _ _ _ _ _ _ _ _ _ Hsep w r false Hu Z ltac:(unfold Z; cbn [zip_mat m_rows]; lia)) as (anc' & Er' & _ & _ & Hanc).
      rewrite Er in Er'. injection Er' as <-. specialize (Hanc j ltac:(unfold Z; cbn [zip_mat m_cols]; lia)). fold (a (fst (w r))) in Hanc.
      destruct (sep_propose _ _ _ _ _ _ _ _ _ _ Hsep w r Hd y par zeros unif) as (T & [S1 S2] & [S3 S4] & Hcs).
      destruct (Hcs j ltac:(lia)) as [C1 C2]. rewrite Epar, Ezeros, Eunif, Tp, Hanc in C1, C2. fold t zs us in C1, C2. fold (xs (fst (w r))) in C1, C2.
      fold (v (fst (w r)) (snd (w r))) in C2. fold (x' (fst (w r)) (snd (w r))) in C1.
      set (vm := snd (sample_and_weight (O w) r y par zeros unif)) in *.
      destruct (Hcol j Hj) as [Ew Ell]. set (incr := map _ (combine (reals vm j) (col anc j))) in *.
      assert (Li : length incr = n) by (unfold incr; rewrite map_length, combine_length, length_reals, length_col; lia).
      assert (Hi0 : (0 < Rsum (map exp incr))%R) by (apply sum_exp_pos; eapply nonempty_len; eassumption).
      assert (Hn1 : (0 < / INR n * Rsum (map exp incr))%R) by now apply Rmult_lt_0_compat.
      assert (Ell' : c_ll c j = Fin (ln (/ INR n * Rsum (map exp incr) * S0))) by (rewrite Ell; f_equal; symmetry; now apply ln_mult).
      assert (Ei : imp lowest (col (c_w c) j) = normal (map exp incr)).
      { rewrite (col_fin (c_w c) j); [rewrite Ew; apply imp_fin| |destruct Hc as [_ [_ H2] _ _]; lia].
        exact Hwf. }
      assert (En : forall i, i < n -> nth i (map exp incr) 0%R = (exp (real_of (nth i (v (fst (w r)) (snd (w r))) NaN)) * exp (- nth (nth i (a (fst (w r))) 0%nat) g 0))%R).
      { intros i Hi. rewrite (nth_map' exp _ _ _ 0%R) by lia. unfold incr. rewrite (nth_map' _ _ _ _ (0%R, 0)) by (rewrite combine_length, length_reals, length_col; lia).
        rewrite combine_nth by (rewrite length_reals, length_col; lia). cbn [fst snd]. rewrite <- exp_plus. f_equal. unfold Rminus. f_equal.
        - rewrite nth_reals by lia. rewrite <- (nth_col vm i j NaN) by lia. now rewrite C2.
        - now rewrite Hanc. }
      exists c. split; [exact Ec|]. split; [split; [exact Hc|rewrite Ex; now apply SG]|]. rewrite Ex. split; [rewrite T; now rewrite Tp|]. split.
      + rewrite (corrected_bulk c (map exp incr) _ (Rmult_lt_0_compat _ _ Hn1 HS) Ell' Ei Hi0). apply Rle_trans with (sumto n (fun _ => square (k * H * 1))).
        * apply sumto_le. intros i Hi. rewrite En by exact Hi. apply square_le. rewrite Rmult_1_r.
          replace (/ INR n * Rsum (map exp incr) * S0 / Rsum (map exp incr))%R with k by (unfold k; field; lra).
          pose proof (Hrel (fst (w r)) (snd (w r)) i Hu Hd Hi) as Q.
          assert (0 <= k)%R by (unfold k; apply Rmult_le_pos; lra).
          split; [apply Rmult_le_pos; [assumption|]; left; apply Rmult_lt_0_compat; apply exp_pos|apply Rmult_le_compat_l; lra].
        * rewrite sumto_const. pose proof (HG0 1%R ltac:(lra)) as Q. now rewrite !Rmult_1_r in *.
      + rewrite (corrected_value lowest n j c (map exp incr) _ f (Rmult_lt_0_compat _ _ Hn1 HS) Ell' Ei Hi0). apply sumto_ext. intros i Hi.
        rewrite En, Ex by exact Hi. rewrite <- (nth_col (ts_val (fst (sample_and_weight (O w) r y par zeros unif))) i j dflt) by lia. rewrite C1.
        unfold k. field. repeat split; (lra || (apply not_0_INR; lia)).
  Qed.

  (** Both. *)
  Variable kd : kind.
  Hypothesis Hkd : (exists thr, kd = SISR thr /\ steady_resampling LU kappa n b fr) \/ (kd = APF /\ looks).
  Lemma predict_any r s f B : sok s -> bounded f B ->
    exists F, at_most LU (fun u => square (F u - value s f)) (kappa * square B * sq s)%R /\
    forall w, supp LU (fst (w r)) -> exists p, predict lowest (O w) kd r s = Ok p /\ pok p /\ (pq p <= sq s)%R /\
      ts_time (p_x p) = ts_time (c_x s) /\ pvalue p f = F (fst (w r)).
  Proof. intros Hs HB. destruct Hkd as [(thr & -> & Hr)|(-> & _)]; [now apply sisr_predict_error|now apply apf_predict_error]. Qed.
  Lemma settle_any (w0 : filter_stream U D) y p f B : (seen y <> None -> usable y) -> pok p -> movable (ts_time (p_x p)) (seen y) f -> (0 <= B)%R -> bounded f B ->
    step_error p (move (ts_time (p_x p)) (seen y) f) f B (fun o r => settle lowest kd o r y p).
  Proof.
    intros Hy Hp. rewrite seen_missing in *. unfold settle. destruct (missing y); intros Hm HB0 HB; [now apply create_any|]. specialize (Hy ltac:(discriminate)).
    destruct Hkd as [(thr & -> & _)|(-> & Hl)]; [now apply sisr_any|now apply apf_any].
  Qed.

  (** * The loop *)
  Lemma any_state_step (s : corr X) h B (f est : filter_stream U D -> R) k r w A D0 Q : sok s -> bounded h B -> (0 <= A)%R -> (0 <= Q)%R ->
    (forall u d p, supp LU u -> supp LD d -> predict lowest (O (put w r (u, d))) kd r s = Ok p -> pok p -> ts_time (p_x p) = ts_time (c_x s) ->
       forall A' D', (0 <= A')%R -> (forall w', agree (S r) (put w r (u, d)) w' -> (f w' <= A' * square (est w' - pvalue p h) + D')%R) ->
       at_most_over LU LD k (S r) f (put w r (u, d)) (A' * (Q * pq p) + D')%R) ->
    (forall w', agree r w w' -> (f w' <= A * square (est w' - value s h) + D0)%R) ->
    at_most_over LU LD (S k) r f w (A * ((2 * Q + 2 * (kappa * square B)) * sq s) + D0)%R.
  Proof.
    intros Hs HB HA HQ Hrec Hf. destruct (predict_any r s h B Hs HB) as (F & HF & Hw).
    set (T u := ((2 * A) * square (F u - value s h) + (2 * A * (Q * sq s) + D0))%R).
    exists (fun u _ => T u), T. split; [|split].
    - intros u d Hu Hd. set (w1 := put w r (u, d)) in *.
      assert (E1 : w1 r = (u, d)) by (unfold w1, put; now rewrite Nat.eqb_refl).
      destruct (Hw w1) as (p & Ep & Hp & Hpq & Tp & Ev); [now rewrite E1|]. rewrite E1 in Ev. cbn [fst] in Ev.
      apply (over_most_weaken LU LD k (S r) f f w1 (2 * A * (Q * pq p) + (2 * A * square (F u - value s h) + D0))%R); [intros; apply Rle_refl| |].
      { unfold T. assert (2 * A * (Q * pq p) <= 2 * A * (Q * sq s))%R by (apply Rmult_le_compat_l; [lra|now apply Rmult_le_compat_l]). lra. }
      apply (Hrec u d p Hu Hd Ep Hp Tp); [lra|]. intros w' Ha. apply agree_put in Ha. destruct Ha as [_ Ha]. specialize (Hf w' Ha).
      rewrite <- Ev. pose proof (square_plus (est w' - pvalue p h) (pvalue p h - value s h)) as R0.
      replace (est w' - pvalue p h + (pvalue p h - value s h))%R with (est w' - value s h)%R in R0 by ring.
      apply (Rmult_le_compat_l A) in R0; [lra|exact HA].
    - intros u _. now apply at_most_const.
    - apply (at_most_weaken LU _ T) with (1 := fun _ _ => Rle_refl _) (2 := at_most_affine LU HU (2 * A) (2 * A * (Q * sq s) + D0) _ _ ltac:(lra) HF). right. ring.
  Qed.
  Lemma any_pred_step (p : pred X) mv f' B (act : @oracle X (list xf) -> nat -> res (corr X)) (f est est' : filter_stream U D -> R) k r w A D0 Q : (0 <= Q)%R ->
    step_error p mv f' B act -> (0 <= A)%R ->
    (forall u d c, supp LU u -> supp LD d -> act (O (put w r (u, d))) r = Ok c -> sok c -> ts_time (c_x c) = S (ts_time (p_x p)) ->
       (forall w', agree (S r) (put w r (u, d)) w' -> est w' = (exp (real_of (c_ll c j)) * est' w')%R) /\
       forall A' D', (0 <= A')%R -> (forall w', agree (S r) (put w r (u, d)) w' -> (f w' <= A' * square (est' w' - value c f') + D')%R) ->
       at_most_over LU LD k (S r) f (put w r (u, d)) (A' * (Q * sq c) + D')%R) ->
    (forall w', agree r w w' -> (f w' <= A * square (est w' - pvalue p mv) + D0)%R) ->
    at_most_over LU LD (S k) r f w (A * ((2 * square G * Q + 4 * (1 + kappa) * square (G * B)) * pq p) + D0)%R.
  Proof.
    intros HQ (F & H1 & HF & HH & Hw) HA Hrec Hf.
    set (base := (2 * A * (square G * pq p * Q) + D0)%R).
    set (T u d := (4 * A * square (F u d - H1 u) + (4 * A * square (H1 u - pvalue p mv) + base))%R).
    exists T, (fun u => 4 * A * (square (G * B) * pq p) + (4 * A * square (H1 u - pvalue p mv) + base))%R. split; [|split].
    - intros u d Hu Hd. set (w1 := put w r (u, d)) in *.
      assert (E1 : w1 r = (u, d)) by (unfold w1, put; now rewrite Nat.eqb_refl).
      destruct (Hw w1 r) as (c & Ec & Hc & Tc & Hll & Ev); [now rewrite E1|now rewrite E1|]. rewrite E1 in Ev. cbn [fst snd] in Ev.
      destruct (Hrec u d c Hu Hd Ec Hc Tc) as [Hest Hr]. set (e := exp (real_of (c_ll c j))) in *.
      apply (over_most_weaken LU LD k (S r) f f w1 (2 * A * square e * (Q * sq c) + (4 * A * square (F u d - H1 u) + 4 * A * square (H1 u - pvalue p mv) + D0))%R); [intros; apply Rle_refl| |].
      { unfold T, base. assert (2 * A * square e * (Q * sq c) <= 2 * A * (square G * pq p * Q))%R.
        { replace (2 * A * square e * (Q * sq c))%R with (2 * A * (square e * sq c * Q))%R by ring. apply Rmult_le_compat_l; [lra|]. now apply Rmult_le_compat_r. }
        lra. }
      apply Hr; [apply Rmult_le_pos; [lra|apply square_nonneg]|]. intros w' Ha. specialize (Hest w' Ha). apply agree_put in Ha. destruct Ha as [_ Ha]. specialize (Hf w' Ha).
      rewrite <- Ev. rewrite Hest in Hf.
      pose proof (square_plus (e * (est' w' - value c f')) (e * value c f' - pvalue p mv)) as R0.
      replace (e * (est' w' - value c f') + (e * value c f' - pvalue p mv))%R with (e * est' w' - pvalue p mv)%R in R0 by ring.
      pose proof (square_plus (e * value c f' - H1 u) (H1 u - pvalue p mv)) as R1.
      replace (e * value c f' - H1 u + (H1 u - pvalue p mv))%R with (e * value c f' - pvalue p mv)%R in R1 by ring.
      replace (square (e * (est' w' - value c f'))) with (square e * square (est' w' - value c f'))%R in R0 by (unfold square; ring).
      assert (R2 : (A * square (e * est' w' - pvalue p mv) <=
        A * (2 * (square e * square (est' w' - value c f')) + 2 * (2 * square (e * value c f' - H1 u) + 2 * square (H1 u - pvalue p mv))))%R)
        by (apply Rmult_le_compat_l; [exact HA|lra]).
      lra.
    - intros u Hu. apply at_most_affine; [exact HD|lra|now apply HF].
    - pose proof (at_most_affine LU HU (4 * A) (4 * A * (square (G * B) * pq p) + base) _ _ ltac:(lra) HH) as Q0.
      refine (at_most_weaken LU _ _ _ _ _ Q0 _); [intros u _; right; ring|]. right. unfold base. ring.
  Qed.

  Variable cf : fconf.
  Hypothesis Hevery : observe_every cf <> 0.
  Notation every := (observe_every cf).
  Variables (phi : X -> R) (B0 : R).
  Hypothesis HB0 : (0 <= B0)%R.
  Hypothesis Hphi : bounded phi B0.
  Notation expd := (expected move every phi).
  Notation west := (west lowest n j phi).
  Notation most := (most G B0).

  Definition any_pest (o : @oracle X (list xf)) (f1 f2 r : nat) (y : list xf) (ys : list (list xf)) (p : pred X) : R :=
    match advance lowest o kd cf f1 r p with
    | Some (Ok (q, r', _)) =>
        match settle lowest kd o r' y q with
        | Ok c => (exp (real_of (c_ll c j)) * west (batch_filter lowest o kd cf f2 (S r') ys c))%R
        | Raise _ => 0%R
        end
    | _ => 0%R
    end.
  Definition any_sest (o : @oracle X (list xf)) (f1 f2 r : nat) (y : list xf) (ys : list (list xf)) (s : corr X) : R :=
    match predict lowest o kd r s with Ok p => any_pest o f1 f2 (S r) y ys p | Raise _ => 0%R end.
  Lemma any_step (o : @oracle X (list xf)) f r y ys s : west (batch_filter lowest o kd cf f r (y :: ys) s) = any_sest o f f r y ys s.
  Proof.
    unfold any_sest, any_pest, settle. cbn [batch_filter]. unfold filter_step, ConvergeFilter.west.
    destruct (predict lowest o kd r s) as [p|]; [|cbn [estimate]; ring].
    destruct (advance lowest o kd cf f (S r) p) as [[[[q r'] l]|]|] eqn:Ea; [|cbn [estimate]; ring|cbn [estimate]; ring].
    destruct (if missing y then _ else _) as [c|]; [|cbn [estimate]; ring].
    destruct (batch_filter lowest o kd cf f (S r') ys c) as [[[[c' r''] l']|]|]; cbn [estimate last_mean]; [|ring|ring].
    rewrite !map_app, !Rsum_app, <- Rmult_assoc, <- exp_plus. do 2 f_equal. cbn [map].
    assert (E : Rsum (map (fun c => real_of (c_ll c j)) (if record_intermediary cf then l else [])) = 0%R) by (destruct (record_intermediary cf); [eapply advance_ll; eassumption|reflexivity]).
    rewrite E. unfold Rsum. cbn [fold_right]. ring.
  Qed.

  (** The mean square error times the effective sample size: [ac K] from a corrected state with [K] moves to go, [apc K] from a
      prediction with [K] moves to go after the next. *)
  Definition apc_of (s : R) (K : nat) : R := (2 * square G * s + 4 * (1 + kappa) * square (G * most K))%R.
  Fixpoint ac (K : nat) : R :=
    match K with
    | 0 => 0%R
    | S K => (2 * apc_of (ac K) K + 2 * (kappa * square (most (S K))))%R
    end.
  Definition apc (K : nat) : R := apc_of (ac K) K.
  Lemma apc_pos' s K : (0 <= s)%R -> (0 <= apc_of s K)%R.
  Proof. intros Hs. unfold apc_of. pose proof (Rmult_le_pos _ _ (square_nonneg G) Hs). pose proof (Rmult_le_pos (1 + kappa) _ ltac:(lra) (square_nonneg (G * most K))). lra. Qed.
  Lemma ac_pos K : (0 <= ac K)%R.
  Proof.
    induction K as [|K IH]; cbn [ac]; [lra|]. pose proof (apc_pos' _ K IH). pose proof (Rmult_le_pos _ _ Hkappa (square_nonneg (most (S K)))). lra.
  Qed.
  Lemma apc_pos K : (0 <= apc K)%R.
  Proof. apply apc_pos', ac_pos. Qed.

  Lemma bound_all (w0 : filter_stream U D) ys : forall t, Forall (fun y => seen y <> None -> usable y) ys -> has_expected move movable every phi t (map seen ys) ->
    bounded (expd t (map seen ys)) (most (steps every t (map seen ys))).
  Proof. intros t Hys He. exact (expected_bound LU LD HD PD C fr fp fx fw fg good usable Hsep n b j Hn Hj G HG move movable Hmove Hsteady dflt cf Hevery phi B0 HB0 Hphi w0 ys t Hys He). Qed.
  Lemma bound_move (w0 : filter_stream U D) t y f B : (forall y', y = Some y' -> usable y') -> movable t y f -> (0 <= B)%R -> bounded f B -> bounded (move t y f) (G * B)%R.
  Proof. intros Hy Hm HB HBf x Hx. exact (move_bound LU LD HD PD C fr fp fx fw fg good usable Hsep n b j Hn Hj G HG move movable Hmove Hsteady dflt w0 t y f B x Hx Hy Hm HB HBf). Qed.
  Lemma bound_hops (w0 : filter_stream U D) m t f K : hoppable move movable m t f -> bounded f (most K) -> bounded (hops move m t f) (most (m + K)).
  Proof. exact (hops_bound LU LD HD PD C fr fp fx fw fg good usable Hsep n b j Hn Hj G HG move movable Hmove Hsteady dflt B0 HB0 w0 m t f K). Qed.
  Lemma most_nonneg K : (0 <= most K)%R.
  Proof. exact (most_pos G HG B0 HB0 K). Qed.
  Lemma seen_used y : (seen y <> None -> usable y) -> forall y', seen y = Some y' -> usable y'.
  Proof. unfold seen. destruct (forallb _ y); [discriminate|]. intros Q y' [= <-]. apply Q. discriminate. Qed.

  Definition any_error (ys : list (list xf)) : Prop := Forall (fun y => seen y <> None -> usable y) ys ->
    forall f2 k r s w f A D0, every <= f2 -> sok s ->
    has_expected move movable every phi (ts_time (c_x s)) (map seen ys) -> draws every (ts_time (c_x s)) (map seen ys) <= k -> (0 <= A)%R ->
    (forall w', agree r w w' -> (f w' <= A * square (west (batch_filter lowest (O w') kd cf f2 r ys s) - value s (expd (ts_time (c_x s)) (map seen ys))) + D0)%R) ->
    at_most_over LU LD k r f w (A * (ac (steps every (ts_time (c_x s)) (map seen ys)) * sq s) + D0)%R.

  Lemma any_pred_error y ys : (seen y <> None -> usable y) -> Forall (fun y => seen y <> None -> usable y) ys -> any_error ys -> forall m f1 f2 k r p w f A D0, every <= f2 -> pok p ->
    let t := ts_time (p_x p) in until every t = m -> m < f1 ->
    let g := move (t + m) (seen y) (expd (S (t + m)) (map seen ys)) in
    hoppable move movable m t g -> movable (t + m) (seen y) (expd (S (t + m)) (map seen ys)) ->
    has_expected move movable every phi (S (t + m)) (map seen ys) ->
    1 + 2 * m + draws every (S (t + m)) (map seen ys) <= k -> (0 <= A)%R ->
    (forall w', agree r w w' -> (f w' <= A * square (any_pest (O w') f1 f2 r y ys p - pvalue p (hops move m t g)) + D0)%R) ->
    at_most_over LU LD k r f w (A * (apc (m + steps every (S (t + m)) (map seen ys)) * pq p) + D0)%R.
  Proof.
    intros Hy Hys IHys'. specialize (IHys' Hys) as IHys. clear IHys'. induction m as [|m IH]; intros f1 f2 k r p w f A D0 Hf2 Hp t Hu Hf1 g Hh Hm Hl Hk HA Hest.
    - destruct k as [|k]; [lia|]. destruct f1 as [|f1]; [lia|]. cbn [hops] in Hest. unfold g in *. cbn [Nat.add] in *. replace (t + 0) with t in * by lia.
      set (K := steps every (S t) (map seen ys)). unfold apc, apc_of.
      pose proof (settle_any w y p _ (most K) Hy Hp Hm (most_nonneg K) (bound_all w ys (S t) Hys Hl)) as Hact. fold t in Hact.
      apply (any_pred_step p _ _ (most K) (fun o r => settle lowest kd o r y p) f (fun w' => any_pest (O w') (S f1) f2 r y ys p)
        (fun w' => match settle lowest kd (O w') r y p with Ok c => west (batch_filter lowest (O w') kd cf f2 (S r) ys c) | Raise _ => 0%R end) k r w A D0 (ac K) (ac_pos K) Hact HA); [|exact Hest].
      intros u d c Hu' Hd Ec Hc Tc. set (w1 := put w r (u, d)) in *. fold t in Tc.
      assert (Es : forall w', agree (S r) w1 w' -> settle lowest kd (O w') r y p = Ok c).
      { intros w' Ha. apply agree_put in Ha. destruct Ha as [E2 Ha]. rewrite <- Ec. apply settle_local. rewrite E2. unfold w1, put. now rewrite Nat.eqb_refl. }
      split.
      + intros w' Ha. rewrite (Es w' Ha). unfold any_pest. cbn [advance]. apply (until_0 n b j Hn Hj cf Hevery) in Hu.
        fold t. rewrite Hu. destruct (Nat.eqb_spec every 0); [contradiction|]. cbn [Nat.eqb]. now rewrite (Es w' Ha).
      + intros A' D' HA' Hf'. unfold K. rewrite <- Tc. apply (IHys f2); [exact Hf2|exact Hc|rewrite Tc; exact Hl|rewrite Tc; lia|exact HA'|].
        intros w' Ha. specialize (Hf' w' Ha). rewrite (Es w' Ha) in Hf'. rewrite Tc. exact Hf'.
    - destruct k as [|[|k]]; [lia|lia|]. destruct f1 as [|f1]; [lia|]. destruct Hh as [Hh1 Hh2]. cbn [hops] in Hest.
      destruct (until_S n b j Hn Hj cf Hevery t m Hu) as [Hmod Hu1].
      set (K := m + steps every (S (t + S m)) (map seen ys)).
      assert (Eg : g = move (S t + m) (seen y) (expd (S (S t + m)) (map seen ys))) by (unfold g; now replace (t + S m) with (S t + m) by lia).
      assert (Hbound : bounded (hops move m (S t) g) (most (S K))).
      { unfold K. replace (S (m + steps every (S (t + S m)) (map seen ys))) with (m + S (steps every (S (t + S m)) (map seen ys))) by lia.
        apply (bound_hops w); [exact Hh2|]. rewrite most_S. unfold g. apply (bound_move w); [now apply seen_used|exact Hm|apply most_nonneg|].
        now apply (bound_all w). }
      change (S m + steps every (S (t + S m)) (map seen ys)) with (S K). unfold apc, apc_of.
      pose proof (create_any p _ (most (S K)) Hp Hh1 Hbound) as Hact. fold t in Hact.
      apply (any_pred_step p _ _ (most (S K)) (fun o r => create_state lowest o r p) f (fun w' => any_pest (O w') (S f1) f2 r y ys p)
        (fun w' => match create_state lowest (O w') r p with Ok c => any_sest (O w') f1 f2 (S r) y ys c | Raise _ => 0%R end) (S k) r w A D0 (ac (S K)) (ac_pos (S K)) Hact HA); [|exact Hest].
      intros u d c Hu' Hd Ec Hc Tc. set (w1 := put w r (u, d)) in *. fold t in Tc.
      assert (Es : forall w', agree (S r) w1 w' -> create_state lowest (O w') r p = Ok c).
      { intros w' Ha. apply agree_put in Ha. destruct Ha as [E2 Ha]. rewrite <- Ec. apply create_local. rewrite E2. unfold w1, put. now rewrite Nat.eqb_refl. }
      split.
      + intros w' Ha. rewrite (Es w' Ha). unfold any_pest, any_sest. cbn [advance]. fold t. destruct (Nat.eqb_spec every 0); [contradiction|].
        destruct (Nat.eqb_spec (t mod every) 0); [contradiction|]. rewrite (Es w' Ha). rewrite (create_ll lowest j _ _ _ _ Ec). cbn [real_of]. rewrite exp_0, Rmult_1_l.
        destruct (predict lowest (O w') kd (S r) c) as [p'|]; [|reflexivity]. unfold any_pest.
        destruct (advance lowest (O w') kd cf f1 (S (S r)) p') as [[[[q r'] l]|]|]; reflexivity.
      + intros A' D' HA' Hf'. cbn [ac]. fold (apc K).
        apply (any_state_step c (hops move m (S t) g) (most (S K)) f (fun w' => any_sest (O w') f1 f2 (S r) y ys c) k (S r) w1 A' D' (apc K) Hc Hbound HA' (apc_pos K)).
        2: { intros w' Ha. specialize (Hf' w' Ha). now rewrite (Es w' Ha) in Hf'. }
        intros u2 d2 p' Hu2 Hd2 Ep Hp' Tp A2 D2 HA2 Hf2'. set (w2 := put w1 (S r) (u2, d2)) in *.
        assert (Tp' : ts_time (p_x p') = S t) by congruence.
        unfold K. replace (S (t + S m)) with (S (S t + m)) by lia. replace (t + S m) with (S t + m) in * by lia. rewrite <- Tp'.
        apply (IH f1 f2); [exact Hf2|exact Hp'|rewrite Tp'; exact Hu1|lia|rewrite Tp', <- Eg; exact Hh2|rewrite Tp'; exact Hm|rewrite Tp'; exact Hl|rewrite Tp'; lia|exact HA2|].
        intros w' Ha. specialize (Hf2' w' Ha). unfold any_sest in Hf2'. apply agree_put in Ha. destruct Ha as [E3 Ha].
        rewrite (predict_local lowest C kd (S r) c w2 w') in Hf2' by (rewrite E3; unfold w2, put; now rewrite Nat.eqb_refl).
        rewrite Ep in Hf2'. rewrite Tp', <- Eg. exact Hf2'.
  Qed.

  Lemma any_errors ys : any_error ys.
  Proof.
    induction ys as [|y ys IH]; intros Hys f2 k r s w f A D0 Hf2 Hs Hl Hk HA Hest.
    - apply over_most_const; [exact HU|exact HD|]. intros w' Ha. specialize (Hest w' Ha). cbn [map steps ac expected] in *.
      assert (E : west (batch_filter lowest (O w') kd cf f2 r [] s) = value s phi).
      { unfold ConvergeFilter.west. cbn [batch_filter estimate last_mean map]. unfold Rsum. cbn [fold_right]. rewrite exp_0, Rmult_1_l. reflexivity. }
      rewrite E in Hest. replace (value s phi - value s phi)%R with 0%R in Hest by ring. unfold square in Hest. lra.
    - inversion_clear Hys as [|z zs Hy Hys']. set (t := ts_time (c_x s)) in *. pose proof Hl as Hl0. cbn [map expected has_expected draws steps] in *. destruct Hl as (Hh & Hm & Hl). destruct k as [|k]; [lia|].
      set (m := until every t) in *. set (g := move (t + m) (seen y) (expd (S (t + m)) (map seen ys))) in *.
      replace (m + 1 + steps every (S (t + m)) (map seen ys)) with (S (m + steps every (S (t + m)) (map seen ys))) by lia.
      set (K := m + steps every (S (t + m)) (map seen ys)). cbn [ac]. fold (apc K).
      assert (Hbound : bounded (hops move m t g) (most (S K))).
      { unfold K. replace (S (m + steps every (S (t + m)) (map seen ys))) with (m + S (steps every (S (t + m)) (map seen ys))) by lia.
        apply (bound_hops w); [exact Hh|]. rewrite most_S. unfold g. apply (bound_move w); [now apply seen_used|exact Hm|apply most_nonneg|].
        now apply (bound_all w). }
      apply (any_state_step s (hops move m t g) (most (S K)) f (fun w' => any_sest (O w') f2 f2 r y ys s) k r w A D0 (apc K) Hs Hbound HA (apc_pos K)).
      2: { intros w' Ha. specialize (Hest w' Ha). now rewrite any_step in Hest. }
      intros u d p Hu Hd Ep Hp Tp A' D' HA' Hf'. set (w1 := put w r (u, d)) in *. fold t in Tp. unfold K. rewrite <- Tp.
      apply (any_pred_error y ys Hy Hys' IH m f2 f2); rewrite ?Tp; try assumption; try reflexivity.
      + pose proof (until_small cf Hevery t). unfold m. lia.
      + lia.
      + intros w' Ha. specialize (Hf' w' Ha). unfold any_sest in Hf'. apply agree_put in Ha. destruct Ha as [E2 Ha].
        rewrite (predict_local lowest C kd r s w1 w') in Hf' by (rewrite E2; unfold w1, put; now rewrite Nat.eqb_refl).
        rewrite Ep in Hf'. exact Hf'.
  Qed.

  (** With possible draws the states of a run are as they should be. *)
  Notation possible := (possible LU LD).
  Lemma any_predict_sok w r s p : possible w -> sok s -> predict lowest (O w) kd r s = Ok p -> pok p.
  Proof.
    intros Hw Hs E. destruct (predict_any r s (fun _ => 0%R) 0 Hs) as (F & _ & Q); [intros; rewrite Rabs_R0; lra|].
    destruct (Q w (proj1 (Hw r))) as (p' & E' & Hp & _). congruence.
  Qed.
  Lemma any_create_sok w r p c : possible w -> pok p -> create_state lowest (O w) r p = Ok c -> sok c.
  Proof. exact (create_sok lowest LU LD C fr fp fx fw fg good usable Hsep n b j Hn Hj cf Hevery w r p c). Qed.
  Lemma any_settle_sok w r y p c : (seen y <> None -> usable y) -> possible w -> pok p -> settle lowest kd (O w) r y p = Ok c -> sok c.
  Proof.
    intros Hy Hpw Hpp. rewrite seen_missing in Hy. unfold settle. destruct (missing y); [now apply any_create_sok|]. destruct Hpp as [Hp Hgood]. destruct (Hpw r) as [Hu Hd].
    specialize (Hy ltac:(discriminate)). pose proof Hp as [[Hx1 Hx2] _ _ _ _ _]. destruct Hkd as [(thr & -> & _)|(-> & _)]; cbn [correct]; intros E.
    - pose proof (fun v nv => saw_good LU LD C fr fp fx fw fg good usable Hsep n b j Hn Hj w r y (p_x p) v nv Hy Hd Hgood) as SG.
      destruct (sisr_correct_spec lowest (O w) r y n b p Hn Hp (prop_ok LU LD C fr fp fx fw fg good usable Hsep w r Hd) (proj2 (SG _ _))) as (c' & Ec & Hc & Ex & _).
      rewrite E in Ec. injection Ec as <-. split; [exact Hc|rewrite Ex; now apply SG].
    - assert (Hgf : entries is_fin (look C y (p_x p))).
      { destruct (sep_look _ _ _ _ _ _ _ _ _ _ Hsep y (p_x p)) as [[Hg1 Hg2] Lk]. apply (fin_cols n b j Hn Hj). intros k Hk. rewrite Lk by lia.
        apply (sep_look_good _ _ _ _ _ _ _ _ _ _ Hsep); [exact Hy|]. apply good_col; [exact Hgood|lia]. }
      destruct (apf_correct_explicit lowest (O w) r y n b p Hn Hp (prop_ok LU LD C fr fp fx fw fg good usable Hsep w r Hd) (look_ok LU LD C fr fp fx fw fg good usable Hsep w)
          (res_ok LU LD C fr fp fx fw fg good usable Hsep n b j Hn Hj w r false Hu) Hgf)
        as (anc & par & zeros & unif & Er & _ & _ & [[A1 A2] Hae] & Tp & [P1 P2] & _ & _ & Hcols & Hfin).
      assert (Gpar : entries good (ts_val par)).
      { apply (fin_cols n b j Hn Hj). intros q Hq. rewrite P2 in Hq. destruct (Hcols q Hq) as (_ & _ & -> & _). apply Forall_forall. intros z Hv. apply in_map_iff in Hv.
        destruct Hv as (a' & <- & Ha'). apply in_col in Ha'. destruct Ha' as (i & Hi & <-). apply Hgood; [|lia]. rewrite Hx1. apply Hae; lia. }
      pose proof (fun v nv => saw_good LU LD C fr fp fx fw fg good usable Hsep n b j Hn Hj w r y par v nv Hy Hd Gpar) as SG.
      destruct (Hfin (proj2 (SG _ _))) as (c' & Ec & Hc & Ex & _). rewrite E in Ec. injection Ec as <-. split; [exact Hc|rewrite Ex; now apply SG].
  Qed.
  Lemma any_advance_pok w : possible w -> forall f r p q r' l, pok p -> advance lowest (O w) kd cf f r p = Some (Ok (q, r', l)) -> pok q.
  Proof.
    intros Hw. induction f as [|f IH]; intros r p q r' l Hp E; [discriminate|]. cbn [advance] in E. destruct (every =? 0); [discriminate|].
    destruct (_ mod _ =? 0); [injection E as <- <- <-; exact Hp|].
    destruct (create_state lowest (O w) r p) as [c|] eqn:Ec; [|discriminate]. destruct (predict lowest (O w) kd (S r) c) as [p'|] eqn:Ep; [|discriminate].
    destruct (advance lowest (O w) kd cf f (S (S r)) p') as [[[[q' r''] l']|]|] eqn:Ea; try discriminate. injection E as <- <- <-.
    apply (IH _ _ _ _ _ (any_predict_sok w _ c p' Hw (any_create_sok w _ p c Hw Hp Ec) Ep) Ea).
  Qed.
  Lemma any_run_sok w : possible w -> forall ys f r s c r' l, Forall (fun y => seen y <> None -> usable y) ys -> sok s ->
    batch_filter lowest (O w) kd cf f r ys s = Some (Ok (c, r', l)) -> sok c.
  Proof.
    intros Hw. induction ys as [|y ys IH]; intros f r s c r' l Hys Hs E; cbn [batch_filter] in E; [injection E as <- <- <-; exact Hs|].
    inversion_clear Hys as [|? ? Hy Hys']. unfold filter_step in E. destruct (predict lowest (O w) kd r s) as [p|] eqn:Ep; [|discriminate].
    destruct (advance lowest (O w) kd cf f (S r) p) as [[[[q r1] l1]|]|] eqn:Ea; try discriminate.
    change (if missing y then create_state lowest (O w) r1 q else correct lowest (O w) kd r1 y q) with (settle lowest kd (O w) r1 y q) in E.
    destruct (settle lowest kd (O w) r1 y q) as [c1|] eqn:Es; [|discriminate].
    destruct (batch_filter lowest (O w) kd cf f (S r1) ys c1) as [[[[c2 r2] l2]|]|] eqn:Eb; try discriminate. injection E as <- <- <-.
    apply (IH f (S r1) c1 c2 r2 l2 Hys'); [|exact Eb]. apply (any_settle_sok w r1 y q c1 Hy Hw); [|exact Es]. apply (any_advance_pok w Hw _ _ _ _ _ _ (any_predict_sok w r s p Hw Hs Ep) Ea).
  Qed.
  (** The error is of order one over the number of particles. *)
  Lemma ac_rate K : (ac K <= INR K * (8 + 10 * kappa) * (4 * square G) ^ K * square B0)%R.
  Proof.
    assert (HG2 : (1 <= square G)%R) by (unfold square; nra).
    induction K as [|K IH]; [cbn [ac INR]; rewrite !Rmult_0_l; lra|]. cbn [ac]. unfold apc_of. rewrite <- most_S.
    set (c := (8 + 10 * kappa)%R) in *.
    assert (Em : square (most (S K)) = ((square G) ^ S K * square B0)%R) by (unfold ConvergeFilter.most, square; rewrite Rpow_mult_distr; ring).
    rewrite Em. set (q := square G) in *.
    replace (2 * (2 * q * ac K + 4 * (1 + kappa) * (q ^ S K * square B0)) + 2 * (kappa * (q ^ S K * square B0)))%R
      with (4 * q * ac K + c * (q ^ S K * square B0))%R by (unfold c; ring).
    pose proof (square_nonneg B0) as HQ.
    assert (Hc : (0 <= c)%R) by (unfold c; lra).
    assert (Hq : (q ^ S K <= (4 * q) ^ S K)%R) by (apply pow_incr; lra).
    replace (INR (S K) * c * (4 * q) ^ S K * square B0)%R with (4 * q * (INR K * c * (4 * q) ^ K * square B0) + c * ((4 * q) ^ S K * square B0))%R
      by (rewrite S_INR; cbn [pow]; ring).
    apply Rplus_le_compat; [apply Rmult_le_compat_l; [lra|exact IH]|]. apply Rmult_le_compat_l; [exact Hc|]. apply Rmult_le_compat_r; [exact HQ|exact Hq].
  Qed.
End Run.
