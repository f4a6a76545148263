(** The likelihood estimate of a particle filter, averaged over the draws. *)
From Coq Require Import Reals List Bool Arith Lia Lra.
From Verif.Model Require Import Base Xf Tensor Weights Particle FilterLoop.
From Verif.Spec Require Import WeightsSpec ResamplingSpec ParticleSpec LoopSpec UnbiasedSpec FairSpec.
From Verif.Proofs Require Import WeightsProofs MomentsProofs ResamplingProofs ParticleProofs StepProofs UnbiasedProofs.
Import ListNotations.
Local Open Scope nat_scope.

(** * Sums *)
Definition sumto (n : nat) (f : nat -> R) : R := Rsum (map f (seq 0 n)).
Lemma sumto_ext n f g : (forall i, i < n -> f i = g i) -> sumto n f = sumto n g.
Proof. intros H. unfold sumto. f_equal. apply map_ext_in. intros i Hi. apply H. apply in_seq in Hi. lia. Qed.
Lemma sumto_scal n a f : sumto n (fun i => a * f i)%R = (a * sumto n f)%R.
Proof. unfold sumto. apply (Rsum_map_scale f). Qed.
Lemma Rsum_nth (l : list R) : Rsum l = sumto (length l) (fun i => nth i l 0%R).
Proof.
  unfold sumto. f_equal. apply (nth_ext _ _ 0%R 0%R); [now rewrite map_length, seq_length|]. intros i Hi.
  rewrite (nth_indep (map (fun i => nth i l 0%R) (seq 0 (length l))) 0%R (nth (length l) l 0%R)) by (now rewrite map_length, seq_length).
  rewrite (map_nth (fun i => nth i l 0%R)), seq_nth by exact Hi. reflexivity.
Qed.
Lemma sumto_single n a f : a < n -> sumto n (fun i => if Nat.eq_dec a i then f i else 0)%R = f a.
Proof.
  unfold sumto, Rsum. induction n as [|n IH]; [lia|]. intros H. rewrite seq_S, map_app, fold_right_app. cbn [map fold_right Nat.add].
  assert (G : forall (l : list R) c, fold_right Rplus c l = (fold_right Rplus 0 l + c)%R) by (induction l as [|x l IHl]; intros c; cbn; [ring|rewrite IHl; ring]).
  rewrite G. destruct (Nat.eq_dec a n) as [->|N].
  - rewrite (map_ext_in _ (fun _ => 0%R)).
    + assert (Z : forall l : list nat, fold_right Rplus 0%R (map (fun _ => 0%R) l) = 0%R) by (induction l as [|x l IHl]; cbn; [reflexivity|rewrite IHl; ring]).
      rewrite Z. ring.
    + intros i Hi. apply in_seq in Hi. destruct (Nat.eq_dec n i); [lia|reflexivity].
  - rewrite IH by lia. ring.
Qed.
Lemma sumto_plus n f g : sumto n (fun i => f i + g i)%R = (sumto n f + sumto n g)%R.
Proof. unfold sumto, Rsum. induction (seq 0 n) as [|a l IH]; cbn [map fold_right]; [ring|]. rewrite IH. ring. Qed.
(** Grouping a selection by the entry selected. *)
Lemma sum_copies n F l : Forall (fun a => a < n) l -> Rsum (map F l) = sumto n (fun i => INR (copies i l) * F i)%R.
Proof.
  induction l as [|a l IH]; intros H.
  - unfold Rsum. cbn [map fold_right]. rewrite (sumto_ext n _ (fun i => 0 * F i)%R) by (intros; reflexivity). rewrite sumto_scal. ring.
  - inversion_clear H as [|x y Ha Hl]. cbn [map]. unfold Rsum in *. cbn [fold_right]. rewrite (IH Hl).
    rewrite <- (sumto_single n a F Ha), <- sumto_plus. apply sumto_ext. intros i _. unfold copies. cbn [count_occ].
    destruct (Nat.eq_dec a i); [rewrite S_INR; ring|ring].
Qed.

Lemma Rsum_repeat a n : Rsum (repeat a n) = (INR n * a)%R.
Proof. unfold Rsum. induction n as [|n IH]; [cbn; ring|]. rewrite S_INR. cbn [repeat fold_right]. rewrite IH. ring. Qed.

(** * Streams *)
Section Streams.
  Context {U D : Type} (LU : law U) (LD : law D) (HU : law_ok LU) (HD : law_ok LD).
  Definition agree (r : nat) (w w' : @stream U D) : Prop := forall i, i < r -> w' i = w i.
  Lemma agree_put r w a w' : agree (S r) (put w r a) w' -> w' r = a /\ agree r w w'.
  Proof.
    intros H. split.
    - rewrite (H r) by lia. unfold put. now rewrite Nat.eqb_refl.
    - intros i Hi. rewrite (H i) by lia. unfold put. destruct (Nat.eqb_spec i r); [lia|reflexivity].
  Qed.
  Lemma over_step k r f w F G c :
    (forall u d, supp LU u -> supp LD d -> averages_over LU LD k (S r) f (put w r (u, d)) (F u d)) ->
    (forall u, supp LU u -> averages LD (F u) (G u)) -> averages LU G c ->
    averages_over LU LD (S k) r f w c.
  Proof.
    intros H1 H2 H3.
    assert (I : forall u, supp LU u -> averages LD (fun d => average LU LD k (S r) f (put w r (u, d))) (G u)).
    { intros u Hu. refine (averages_ext LD HD _ _ _ _ (H2 u Hu)). intros d Hd. symmetry. apply (H1 u d Hu Hd). }
    destruct (averages_ext LU HU _ (fun u => mean LD (fun d => average LU LD k (S r) f (put w r (u, d)))) c ltac:(intros u Hu; symmetry; apply (I u Hu)) H3) as [A B].
    split; [|exact B]. cbn [exists_average]. split; [exact A|]. intros u Hu. split; [apply (I u Hu)|].
    intros d Hd. apply (H1 u d Hu Hd).
  Qed.
  Lemma over_const k : forall r f w c, (forall w', agree r w w' -> f w' = c) -> averages_over LU LD k r f w c.
  Proof.
    induction k as [|k IH]; intros r f w c H.
    - split; [exact I|]. apply H. intros i Hi. reflexivity.
    - apply over_step with (F := fun _ _ => c) (G := fun _ => c).
      + intros u d _ _. apply IH. intros w' Hw. apply agree_put in Hw. apply H, Hw.
      + intros u _. now apply averages_const.
      + now apply averages_const.
  Qed.
End Streams.

Section Run.
  Context {X U D : Type} (lowest : R) (LU : law (nat -> U)) (LD : law (nat -> D)) (HU : law_ok LU) (HD : law_ok LD).
  Variable C : @chances X U D.
  Variables (fr : bool -> U -> list xf -> list nat) (fp : D -> nat -> list X -> list X)
    (fx : D -> list xf -> nat -> list X -> list xf -> list xf -> list X)
    (fw : D -> list xf -> nat -> list X -> list xf -> list xf -> list xf)
    (fg : nat -> list xf -> nat -> list X -> list xf).
  Variables (good : X -> Prop) (usable : list xf -> Prop).
  Hypothesis Hsep : separate LU LD C good usable fr fp fx fw fg.
  Variables (n b j : nat).
  Hypothesis Hn : 0 < n.
  Hypothesis Hj : j < b.
  Hypothesis Hres : fair_resampling lowest LU n b fr.
  Variables (move : nat -> option (list xf) -> (X -> R) -> X -> R) (movable : nat -> option (list xf) -> (X -> R) -> Prop).
  Hypothesis Hmove : fair_moves LD good n j move movable fp fx fw.
  Variable dflt : X.
  Notation O := (at_stream C).

  (** The weighted average of [f] over the particles of filter [j]. *)
  Definition spread (W : list R) (x : mat X) (f : X -> R) : R := sumto n (fun i => nth i W 0 * f (m_get x i j))%R.
  Definition value (s : corr X) (f : X -> R) : R := spread (imp lowest (col (c_w s) j)) (ts_val (c_x s)) f.
  Definition pvalue (p : pred X) (f : X -> R) : R := spread (imp lowest (col (p_w p) j)) (ts_val (p_x p)) f.

  Lemma predict_local k r s w w' : w' r = w r -> predict lowest (O w') k r s = predict lowest (O w) k r s.
  Proof. intros E. destruct k; cbn [predict]; [|reflexivity|reflexivity]. unfold sisr_predict. cbn [at_stream resampler]. now rewrite E. Qed.
  Lemma create_local r p w w' : w' r = w r -> create_state lowest (O w') r p = create_state lowest (O w) r p.
  Proof. intros E. unfold create_state. cbn [at_stream propagate]. now rewrite E. Qed.
  Lemma correct_local k r y p w w' : w' r = w r -> correct lowest (O w') k r y p = correct lowest (O w) k r y p.
  Proof.
    intros E. destruct k; cbn [correct]; unfold sisr_correct, apf_correct, gpf_correct; cbn [at_stream resampler sample_and_weight pre_weight]; now rewrite E.
  Qed.

  Lemma res_ok w r flag : supp LU (fst (w r)) -> resampler_ok (O w) n r flag.
  Proof.
    intros H m Hm. destruct (sep_resample _ _ _ _ _ _ _ _ _ _ Hsep w r flag H m ltac:(lia)) as (i & Hi & Hs & He & _).
    exists i. rewrite Hm in Hs, He. split; [exact Hi|]. now split.
  Qed.
  Lemma prop_ok w r : supp LD (snd (w r)) -> proposal_shape (O w) r.
  Proof. intros H y x v nv. pose proof (sep_propose _ _ _ _ _ _ _ _ _ _ Hsep w r H y x v nv) as (_ & H1 & H2 & _). now split. Qed.
  Lemma walk_ok w r : supp LD (snd (w r)) -> propagate_shape (O w) r.
  Proof. intros H x. apply (sep_walk _ _ _ _ _ _ _ _ _ _ Hsep _ H x). Qed.
  Lemma look_ok w : preweight_shape (O w).
  Proof. intros y x. apply (sep_look _ _ _ _ _ _ _ _ _ _ Hsep y x). Qed.

  Definition sok (s : corr X) : Prop := state_ok n b s /\ entries good (ts_val (c_x s)).
  Definition pok (p : pred X) : Prop := pred_ok lowest n b p /\ entries good (ts_val (p_x p)).
  Lemma good_col {A} (P : A -> Prop) (m : mat A) k : entries P m -> k < m_cols m -> Forall P (col m k).
  Proof. intros H Hk. apply Forall_forall. intros q Hq. apply in_col in Hq. destruct Hq as (i & Hi & <-). now apply H. Qed.
  Lemma fin_cols {A} (P : A -> Prop) (m : mat A) : (forall k, k < m_cols m -> Forall P (col m k)) -> entries P m.
  Proof.
    intros H i k Hi Hk. specialize (H k Hk). rewrite Forall_forall in H. apply H. unfold col. apply in_map_iff. exists i. split; [reflexivity|]. apply in_seq. lia.
  Qed.

  Lemma length_imp l : length (imp lowest l) = length l.
  Proof. unfold imp. apply map_length. Qed.
  Lemma nth_map' {A B} (g : A -> B) l i d d' : i < length l -> nth i (map g l) d = g (nth i l d').
  Proof. intros H. rewrite (nth_indep _ d (g d')) by now rewrite map_length. apply map_nth. Qed.
  Lemma nth_tilt W v i : length W = length v -> nth i (tilt W v) 0%R = (nth i W 0 * exp (nth i v 0))%R.
  Proof.
    revert v i; induction W as [|x W IH]; intros [|y v] i H; try discriminate; destruct i; cbn; try ring; try reflexivity.
    apply (IH v i). now injection H.
  Qed.
  Lemma nth_normal l i : nth i (normal l) 0%R = (nth i l 0 / Rsum l)%R.
  Proof.
    unfold normal. destruct (Nat.lt_ge_cases i (length l)) as [H|H]; [now apply (nth_map' (fun x => (x / Rsum l)%R))|].
    rewrite !nth_overflow by (rewrite ?map_length; exact H). unfold Rdiv. ring.
  Qed.
  Lemma nth_reals m i : i < m_rows m -> nth i (reals m j) 0%R = real_of (m_get m i j).
  Proof. intros H. unfold reals. rewrite (nth_map' _ _ _ _ NaN) by now rewrite length_col. now rewrite nth_col. Qed.
  Lemma length_tilt W v : length W = length v -> length (tilt W v) = length W.
  Proof. intros H. unfold tilt. rewrite map_length, combine_length. lia. Qed.

  Lemma fr_valid (w0 : filter_stream U D) u k l flag : supp LU u -> length l = n -> Forall (fun a => a < n) (fr flag (u k) l) /\ length (fr flag (u k) l) = n.
  Proof.
    intros Hu Hl. set (w := put w0 0 (u, snd (w0 0))). set (m := Mat n (S k) (fun i _ => nth i l NaN)).
    destruct (sep_resample _ _ _ _ _ _ _ _ _ _ Hsep w 0 flag Hu m Hn) as (i & _ & [Hs1 Hs2] & He & Hc).
    cbn [m m_rows m_cols] in *. specialize (Hc k ltac:(lia)).
    assert (Em : col m k = l) by (unfold m; apply (col_of_list n (S k) (fun _ => l) NaN k Hl)). rewrite Em in Hc. cbn in Hc.
    rewrite <- Hc. split; [|now rewrite length_col]. apply Forall_forall. intros a Ha. apply in_col in Ha. destruct Ha as (i' & Hi' & <-).
    apply He; [lia|]. rewrite Hs2. lia.
  Qed.

  Lemma select_average (w0 : filter_stream U D) k W F : k < b -> prob_vec W -> length W = n ->
    averages LU (fun u => Rsum (map F (fr true (u k) (map Fin W)))) (INR n * sumto n (fun i => nth i W 0 * F i))%R.
  Proof.
    intros Hk HW HL. rewrite <- sumto_scal.
    apply (averages_ext LU HU (fun u => sumto n (fun i => INR (copies i (fr true (u k) (map Fin W))) * F i)%R)).
    - intros u Hu. symmetry. apply sum_copies. apply (fr_valid w0); [exact Hu|now rewrite map_length].
    - apply averages_sum; [exact HU|]. intros i Hi. apply in_seq in Hi.
      pose proof (averages_scal LU HU (F i) _ _ (proj1 Hres k W i Hk HW HL ltac:(lia))) as A.
      refine (eq_rect _ (averages LU _) (averages_ext LU HU _ _ _ _ A) _ _); [intros; ring|ring].
  Qed.
  Lemma select_average_log (w0 : filter_stream U D) k l F : k < b -> Forall is_fin l -> length l = n ->
    averages LU (fun u => Rsum (map F (fr false (u k) l))) (INR n * sumto n (fun i => nth i (imp lowest l) 0 * F i))%R.
  Proof.
    intros Hk Hf HL. rewrite <- sumto_scal.
    apply (averages_ext LU HU (fun u => sumto n (fun i => INR (copies i (fr false (u k) l)) * F i)%R)).
    - intros u Hu. symmetry. apply sum_copies. now apply (fr_valid w0).
    - apply averages_sum; [exact HU|]. intros i Hi. apply in_seq in Hi.
      pose proof (averages_scal LU HU (F i) _ _ (proj2 Hres k l i Hk Hf HL ltac:(lia))) as A.
      refine (eq_rect _ (averages LU _) (averages_ext LU HU _ _ _ _ A) _ _); [intros; ring|ring].
  Qed.

  Lemma rank_le mask q : rank mask q <= q.
  Proof. induction q as [|q IH]; [reflexivity|]. rewrite rank_S. destruct (mask q); lia. Qed.
  Lemma predict_value (w0 : filter_stream U D) k r s f : (exists thr, k = SISR thr) \/ k = APF -> sok s ->
    exists F, averages LU F (value s f) /\
    forall w, supp LU (fst (w r)) -> exists p, predict lowest (O w) k r s = Ok p /\ pok p /\
      ts_time (p_x p) = ts_time (c_x s) /\ pvalue p f = F (fst (w r)).
  Proof.
    intros Hk [Hs Hgood]. pose proof Hs as [[Hx1 Hx2] [Hw1 Hw2] He Hi].
    destruct Hk as [[thr ->] | ->].
    - set (W := W lowest s j). assert (HW : prob_vec W) by (eapply W_prob; eassumption).
      assert (LW : length W = n) by (unfold W, StepProofs.W; rewrite length_imp, length_col; exact Hw1).
      set (pick u := fr true (u (rank (low lowest thr s) j)) (map Fin W)).
      exists (fun u => if low lowest thr s j then (/ INR n * Rsum (map (fun a => f (m_get (ts_val (c_x s)) a j)) (pick u)))%R else value s f).
      split.
      + destruct (low lowest thr s j); [|now apply averages_const].
        refine (eq_rect _ (averages LU _) (averages_scal LU HU (/ INR n)%R _ _ (select_average w0 (rank (low lowest thr s) j) W _ (Nat.le_lt_trans _ _ _ (rank_le _ j) Hj) HW LW)) _ _).
        unfold value, spread. change (imp lowest (col (c_w s) j)) with W. field. apply not_0_INR. lia.
      + intros w Hw.
        destruct (predict_ok lowest (O w) (SISR thr) r n b s Hn Hs (res_ok w r true Hw)) as (p & Ep & Hp & Et).
        exists p. split; [exact Ep|].
        destruct (sisr_predict_spec lowest (O w) thr r n b s Hn Hs (res_ok w r true Hw)) as (p' & Ep' & _ & [X1 X2] & _ & _ & _ & Hlow & Hhigh).
        cbn [predict] in Ep. rewrite Ep in Ep'. injection Ep' as <-.
        split; [split; [exact Hp|]|split; [exact Et|]].
        { apply fin_cols. intros q Hq. rewrite X2 in Hq. destruct (low lowest thr s q) eqn:El; [|rewrite (proj1 (Hhigh q Hq El)); apply good_col; [exact Hgood|lia]].
          destruct Hlow as [Hz|(nw & sel & _ & _ & [[S1 S2] Hse] & Hall)]; [pose proof (rank_lt _ _ _ Hq El); lia|].
          destruct (Hall q Hq El) as (_ & E2 & _). rewrite E2. apply Forall_forall. intros v Hv. apply in_map_iff in Hv. destruct Hv as (a & <- & Ha).
          apply in_col in Ha. destruct Ha as (i & Hi' & <-). apply Hgood; [|lia]. rewrite Hx1. apply Hse; [exact Hi'|]. rewrite S2. now apply rank_lt. }
        unfold pvalue, spread. destruct (low lowest thr s j) eqn:El.
        * destruct Hlow as [Hz|(nw & sel & [S1 S2] & Esel & [_ Hse] & Hall)].
          { exfalso. unfold rank in Hz. assert (Hin : In j (filter (low lowest thr s) (seq 0 b))) by (apply filter_In; split; [apply in_seq; lia|exact El]).
            destruct (filter (low lowest thr s) (seq 0 b)); [destruct Hin|discriminate]. }
          destruct (Hall j Hj El) as (E1 & E2 & E3 & _).
          destruct (sep_resample _ _ _ _ _ _ _ _ _ _ Hsep w r true Hw nw ltac:(lia)) as (sel' & Esel' & [T1 T2] & _ & Hc).
          rewrite Esel in Esel'. injection Esel' as <-.
          assert (Hr : rank (low lowest thr s) j < m_cols nw).
          { rewrite S2. unfold rank. replace b with (j + S (b - j - 1)) by lia. rewrite seq_app, filter_app, app_length. cbn [Nat.add seq filter]. rewrite El. cbn [length]. lia. }
          rewrite Hc, E1 in E2 by exact Hr. fold W in E2. change (fr true _ _) with (pick (fst (w r))) in E2.
          destruct (fr_valid w0 (fst (w r)) (rank (low lowest thr s) j) (map Fin W) true Hw ltac:(now rewrite map_length)) as [_ Lp].
          fold (pick (fst (w r))) in Lp.
          assert (Ei : imp lowest (repeat (Fin 0) n) = repeat (/ INR n)%R n).
          { replace (repeat (Fin 0) n) with (map Fin (repeat 0%R n)) by now rewrite map_repeat'. rewrite imp_fin, map_repeat', exp_0. unfold normal.
            rewrite map_repeat'. f_equal. rewrite Rsum_repeat. field. apply not_0_INR. lia. }
          rewrite E3, Ei.
          rewrite (sumto_ext n _ (fun i => / INR n * nth i (map (fun a => f (m_get (ts_val (c_x s)) a j)) (pick (fst (w r)))) 0)%R).
          { rewrite sumto_scal. f_equal. rewrite <- Lp at 1. rewrite <- (map_length (fun a => f (m_get (ts_val (c_x s)) a j))). now rewrite <- Rsum_nth. }
          intros i Hi'.
          f_equal.
          { apply (proj1 (Forall_forall (fun x => x = (/ INR n)%R) (repeat (/ INR n)%R n))); [apply Forall_forall; intros x Hx; now apply repeat_spec in Hx|apply nth_In; now rewrite repeat_length]. }
          rewrite (nth_map' _ _ _ _ 0) by now rewrite Lp. f_equal.
          rewrite <- (nth_col (ts_val (p_x p)) i j dflt) by lia. rewrite E2. now rewrite (nth_map' _ _ _ _ 0) by now rewrite Lp.
        * destruct (Hhigh j Hj El) as (E1 & E2 & _). unfold value, spread. rewrite E2.
          rewrite imp_sanitise by (apply col_clean; [exact He|lia]). apply sumto_ext. intros i Hi'. do 2 f_equal.
          apply col_eq_get; [exact E1|lia|lia].
    - exists (fun _ => value s f). split; [now apply averages_const|]. intros w Hw.
      destruct (predict_ok lowest (O w) APF r n b s Hn Hs (res_ok w r true Hw)) as (p & Ep & Hp & Et).
      exists p. split; [exact Ep|].
      cbn [predict] in Ep. unfold apf_predict in Ep.
      destruct (normalize_mat_spec lowest n b (c_w s) Hn (conj Hw1 Hw2) He) as (nw & N & _). rewrite N in Ep. cbn [bind] in Ep. injection Ep as <-.
      split; [split; [exact Hp|exact Hgood]|]. split; [exact Et|].
      unfold pvalue, value, spread. cbn [p_w p_x]. rewrite col_map_mat, imp_sanitise; [reflexivity|]. apply col_clean; [exact He|lia].
  Qed.

  Lemma create_value p f : pok p -> movable (ts_time (p_x p)) None f ->
    exists F, averages LD F (pvalue p (move (ts_time (p_x p)) None f)) /\
    forall w r, supp LD (snd (w r)) -> exists c, create_state lowest (O w) r p = Ok c /\ sok c /\
      ts_time (c_x c) = S (ts_time (p_x p)) /\ real_of (c_ll c j) = 0%R /\ value c f = F (snd (w r)).
  Proof.
    intros [Hp Hgood] Hm. pose proof Hp as [[Hx1 Hx2] [Hw1 Hw2] Hf _ _ _]. set (t := ts_time (p_x p)) in *. set (xs := col (ts_val (p_x p)) j).
    set (W := imp lowest (col (p_w p) j)).
    exists (fun d => sumto n (fun i => nth i W 0 * f (nth i (fp (d j) t xs) dflt))%R). split.
    - apply averages_sum; [exact HD|]. intros i Hi. apply in_seq in Hi. apply averages_scal; [exact HD|].
      rewrite <- (nth_col (ts_val (p_x p)) i j dflt) by lia. apply (proj1 Hmove); [unfold xs; now rewrite length_col|unfold xs; apply good_col; [exact Hgood|lia]|lia|exact Hm].
    - intros w r Hw. destruct (create_state_spec lowest (O w) r n b p Hn Hp (walk_ok w r Hw)) as (c & Ec & Hc & Ex & _ & El & Ew).
      destruct (sep_walk _ _ _ _ _ _ _ _ _ _ Hsep _ Hw (p_x p)) as (T & [S1 S2] & Hcol). cbn [at_stream propagate] in Ex.
      exists c. split; [exact Ec|]. split; [split; [exact Hc|]|].
      { apply fin_cols. rewrite Ex. intros q Hq. rewrite Hcol by lia. apply (sep_walk_good _ _ _ _ _ _ _ _ _ _ Hsep); [exact Hw|]. apply good_col; [exact Hgood|lia]. }
      rewrite Ex. split; [exact T|]. split; [now rewrite El|].
      unfold value, spread. rewrite (Ew j Hj). fold W. apply sumto_ext. intros i Hi. do 2 f_equal. rewrite Ex.
      rewrite <- (nth_col (ts_val (walk C (snd (w r)) (p_x p))) i j dflt) by lia. now rewrite Hcol by lia.
  Qed.

  Lemma saw_good w r y x v nv : usable y -> supp LD (snd (w r)) -> entries good (ts_val x) ->
    entries good (ts_val (fst (sample_and_weight (O w) r y x v nv))) /\ entries is_fin (snd (sample_and_weight (O w) r y x v nv)).
  Proof.
    intros Hy Hw Hx. destruct (sep_propose _ _ _ _ _ _ _ _ _ _ Hsep w r Hw y x v nv) as (_ & [S1 S2] & [S3 S4] & Hc).
    assert (G : forall k, k < m_cols (ts_val x) -> Forall good (col (ts_val x) k)) by (intros; now apply good_col).
    split; apply fin_cols; intros k Hk; destruct (Hc k ltac:(lia)) as [H1 H2]; [rewrite H1|rewrite H2];
      now apply (sep_propose_good _ _ _ _ _ _ _ _ _ _ Hsep); [| |apply G; lia].
  Qed.

  (** What is needed of a corrected state: weights and likelihood together. *)
  Lemma corrected_value (c : corr X) (T : list R) S f : (0 < S)%R -> c_ll c j = Fin (ln S) -> imp lowest (col (c_w c) j) = normal T -> (0 < Rsum T)%R ->
    (exp (real_of (c_ll c j)) * value c f = sumto n (fun i => S / Rsum T * (nth i T 0 * f (m_get (ts_val (c_x c)) i j))))%R.
  Proof.
    intros HS El Ei HT. rewrite El. cbn [real_of]. rewrite exp_ln by exact HS. unfold value, spread. rewrite Ei, <- sumto_scal.
    apply sumto_ext. intros i Hi. rewrite nth_normal. field. lra.
  Qed.

  Lemma sisr_value thr y p f : usable y -> pok p -> movable (ts_time (p_x p)) (Some y) f ->
    exists F, averages LD F (pvalue p (move (ts_time (p_x p)) (Some y) f)) /\
    forall w r, supp LD (snd (w r)) -> exists c, correct lowest (O w) (SISR thr) r y p = Ok c /\ sok c /\
      ts_time (c_x c) = S (ts_time (p_x p)) /\ (exp (real_of (c_ll c j)) * value c f)%R = F (snd (w r)).
  Proof.
    intros Hy [Hp Hgood] Hm. pose proof Hp as [[Hx1 Hx2] [Hw1 Hw2] Hf _ _ _]. set (t := ts_time (p_x p)) in *. set (xs := col (ts_val (p_x p)) j).
    set (W := imp lowest (col (p_w p) j)).
    set (v d := fw (d j) y t xs (col (p_w p) j) (col (p_nw p) j)). set (x' d := fx (d j) y t xs (col (p_w p) j) (col (p_nw p) j)).
    exists (fun d => sumto n (fun i => nth i W 0 * (exp (real_of (nth i (v d) NaN)) * f (nth i (x' d) dflt)))%R). split.
    - apply averages_sum; [exact HD|]. intros i Hi. apply in_seq in Hi. apply averages_scal; [exact HD|].
      rewrite <- (nth_col (ts_val (p_x p)) i j dflt) by lia. apply (proj2 Hmove); [unfold xs; now rewrite length_col|unfold xs; apply good_col; [exact Hgood|lia]|lia|exact Hm].
    - intros w r Hw. cbn [correct].
      destruct (sisr_correct_spec lowest (O w) r y n b p Hn Hp (prop_ok w r Hw) (proj2 (saw_good w r y _ _ _ Hy Hw Hgood))) as (c & Ec & Hc & Ex & _ & Hcol).
      destruct (sep_propose _ _ _ _ _ _ _ _ _ _ Hsep w r Hw y (p_x p) (p_w p) (p_nw p)) as (T & [S1 S2] & [S3 S4] & Hcs).
      destruct (Hcs j ltac:(lia)) as [C1 C2]. destruct (Hcol j Hj) as (Hpos & Ell & _ & _ & Ei).
      exists c. split; [exact Ec|]. split; [split; [exact Hc|rewrite Ex; now apply saw_good]|]. rewrite Ex. split; [exact T|].
      rewrite (corrected_value c _ _ f Hpos Ell Ei Hpos). apply sumto_ext. intros i Hi.
      set (vm := snd (sample_and_weight (O w) r y (p_x p) (p_w p) (p_nw p))) in *. rewrite Ex.
      rewrite nth_tilt by (rewrite length_imp, length_col, length_reals; lia). rewrite nth_reals by lia.
      rewrite <- (nth_col vm i j NaN) by lia. rewrite C2.
      rewrite <- (nth_col (ts_val (fst (sample_and_weight (O w) r y (p_x p) (p_w p) (p_nw p)))) i j dflt) by lia. rewrite C1.
      fold t xs. fold (v (snd (w r))) (x' (snd (w r))). fold W. field. unfold W. lra.
  Qed.

  Lemma sumto_map F (l : list nat) : length l = n -> sumto n (fun i => F (nth i l 0)) = Rsum (map F l).
  Proof.
    intros H. rewrite Rsum_nth, map_length, H. apply sumto_ext. intros i Hi. symmetry. apply nth_map'. lia.
  Qed.

  Lemma apf_value (w0 : filter_stream U D) y p f : usable y -> pok p -> movable (ts_time (p_x p)) (Some y) f ->
    exists F H, (forall u, supp LU u -> averages LD (F u) (H u)) /\ averages LU H (pvalue p (move (ts_time (p_x p)) (Some y) f)) /\
    forall w r, supp LU (fst (w r)) -> supp LD (snd (w r)) -> exists c, correct lowest (O w) APF r y p = Ok c /\ sok c /\
      ts_time (c_x c) = S (ts_time (p_x p)) /\ (exp (real_of (c_ll c j)) * value c f)%R = F (fst (w r)) (snd (w r)).
  Proof.
    intros Hy [Hp Hgood] Hm. pose proof Hp as [[Hx1 Hx2] [Hw1 Hw2] Hf _ _ _]. set (t := ts_time (p_x p)) in *.
    set (W := imp lowest (col (p_w p) j)).
    set (gm := look C y (p_x p)). set (Z := zip_mat xadd gm (p_w p)). set (g := reals gm j).
    assert (Hg : shaped gm n b) by (destruct (look_ok w0 y (p_x p)) as [L1 L2]; split; [rewrite <- Hx1; exact L1|rewrite <- Hx2; exact L2]).
    destruct Hg as [Hg1 Hg2].
    assert (Hgf : entries is_fin gm).
    { apply fin_cols. intros k Hk. destruct (sep_look _ _ _ _ _ _ _ _ _ _ Hsep y (p_x p)) as [_ L]. fold gm in L.
      rewrite L by lia. apply (sep_look_good _ _ _ _ _ _ _ _ _ _ Hsep); [exact Hy|]. apply good_col; [exact Hgood|lia]. }
    assert (HZ : Forall is_fin (col Z j)).
    { apply Forall_forall. intros q Hq. apply in_col in Hq. destruct Hq as (i & Hi & <-). unfold Z in *. cbn [zip_mat m_get m_rows] in *.
      specialize (Hgf i j Hi ltac:(lia)). specialize (Hf i j ltac:(lia) ltac:(lia)). destruct (m_get gm i j), (m_get (p_w p) i j); simpl in *; tauto. }
    assert (LZ : length (col Z j) = n) by (rewrite length_col; exact Hg1).
    assert (Htilt : (0 < Rsum (tilt W g))%R /\ imp lowest (col Z j) = normal (tilt W g)).
    { assert (Eg : col gm j = map Fin g) by (apply col_fin; [exact Hgf|lia]).
      assert (Ew : col (p_w p) j = map Fin (reals (p_w p) j)) by (apply col_fin; [exact Hf|lia]).
      unfold Z, W. rewrite zip_col by lia. rewrite Eg, Ew, combine_map_l, combine_map_r, !map_map. cbn [fst snd xadd].
      apply tilt_imp; [unfold g; rewrite !length_reals; lia|]. eapply nonempty_len; [apply length_reals|lia]. }
    destruct Htilt as [HS Hnormal]. set (S0 := Rsum (tilt W g)) in *.
    set (a u := fr false (u j) (col Z j)). set (xs u := map (fun i => m_get (ts_val (p_x p)) i j) (a u)).
    set (zs := repeat (Fin 0) n). set (us := repeat (Fin (/ INR n)) n).
    set (v (u : nat -> U) (d : nat -> D) := fw (d j) y t (xs u) zs us). set (x' (u : nat -> U) (d : nat -> D) := fx (d j) y t (xs u) zs us).
    set (k := (S0 * / INR n)%R).
    assert (La : forall u, supp LU u -> length (a u) = n) by (intros u Hu; apply (fr_valid w0 u j _ false Hu LZ)).
    assert (Gx : forall u, supp LU u -> Forall good (xs u)).
    { intros u Hu. apply Forall_forall. intros z Hv. apply in_map_iff in Hv. destruct Hv as (q & <- & Hq). apply Hgood; [|lia]. rewrite Hx1.
      revert q Hq. apply Forall_forall. now apply (fr_valid w0 u j _ false Hu LZ). }
    set (term i := (exp (- nth i g 0) * move t (Some y) f (m_get (ts_val (p_x p)) i j))%R).
    exists (fun u d => sumto n (fun i => k * exp (- nth (nth i (a u) 0%nat) g 0) * (exp (real_of (nth i (v u d) NaN)) * f (nth i (x' u d) dflt)))%R),
      (fun u => k * Rsum (map term (a u)))%R.
    split; [|split].
    - intros u Hu. rewrite <- (sumto_map term (a u) (La u Hu)), <- sumto_scal. apply averages_sum; [exact HD|]. intros i Hi. apply in_seq in Hi.
      unfold term. rewrite <- Rmult_assoc. apply averages_scal; [exact HD|].
      assert (Exs : nth i (xs u) dflt = m_get (ts_val (p_x p)) (nth i (a u) 0) j).
      { unfold xs. rewrite (nth_map' _ _ _ _ 0); [reflexivity|]. rewrite (La u Hu). lia. }
      rewrite <- Exs.
      apply (proj2 Hmove); [unfold xs; rewrite map_length; now apply La|now apply Gx|lia|exact Hm].
    - refine (eq_rect _ (averages LU _) (averages_scal LU HU k _ _ (select_average_log w0 j (col Z j) term Hj HZ LZ)) _ _).
      rewrite Hnormal. unfold pvalue, spread. fold W. rewrite <- !sumto_scal. apply sumto_ext. intros i Hi. unfold term, k.
      rewrite nth_normal, nth_tilt by (unfold W, g; rewrite length_imp, length_col, length_reals; lia). fold S0. rewrite exp_Ropp.
      field. split; [pose proof (exp_pos (nth i g 0%R)); lra|]. split; [lra|]. apply not_0_INR. lia.
    - intros w r Hu Hd. cbn [correct].
      assert (Eg : pre_weight (O w) y (p_x p) = gm) by reflexivity.
      destruct (apf_correct_explicit lowest (O w) r y n b p Hn Hp (prop_ok w r Hd) (look_ok w) (res_ok w r false Hu) Hgf)
        as (anc & par & zeros & unif & Er & _ & _ & [[A1 A2] Hae] & Tp & [P1 P2] & _ & _ & Hcols & Hfin).
      assert (Gpar : entries good (ts_val par)).
      { apply fin_cols. intros q Hq. rewrite P2 in Hq. destruct (Hcols q Hq) as (_ & _ & -> & _). apply Forall_forall. intros z Hv. apply in_map_iff in Hv.
        destruct Hv as (a' & <- & Ha'). apply in_col in Ha'. destruct Ha' as (i & Hi & <-). apply Hgood; [|lia]. rewrite Hx1. apply Hae; lia. }
      destruct (Hfin (proj2 (saw_good w r y _ _ _ Hy Hd Gpar))) as (c & Ec & Hc & Ex & _ & Hwf & Hcol). clear Hfin.
      destruct (Hcols j Hj) as (_ & _ & Epar & Ezeros & Eunif).
      rewrite Eg in *. fold Z in Er. 
      destruct (sep_resample _ _ _ _ _ _ _ _ _ _ Hsep w r false Hu Z ltac:(unfold Z; cbn [zip_mat m_rows]; lia)) as (anc' & Er' & _ & _ & Hanc).
      rewrite Er in Er'. injection Er' as <-. specialize (Hanc j ltac:(unfold Z; cbn [zip_mat m_cols]; lia)). fold (a (fst (w r))) in Hanc.
      destruct (sep_propose _ _ _ _ _ _ _ _ _ _ Hsep w r Hd y par zeros unif) as (T & [S1 S2] & [S3 S4] & Hcs).
      destruct (Hcs j ltac:(lia)) as [C1 C2]. rewrite Epar, Ezeros, Eunif, Tp, Hanc in C1, C2. fold t zs us in C1, C2. fold (xs (fst (w r))) in C1, C2.
      fold (v (fst (w r)) (snd (w r))) in C2. fold (x' (fst (w r)) (snd (w r))) in C1.
      set (vm := snd (sample_and_weight (O w) r y par zeros unif)) in *.
      destruct (Hcol j Hj) as [Ew Ell]. set (incr := map _ (combine (reals vm j) (col anc j))) in *.
      assert (Li : length incr = n) by (unfold incr; rewrite map_length, combine_length, length_reals, length_col; lia).
      assert (Hi0 : (0 < Rsum (map exp incr))%R) by (apply sum_exp_pos; eapply nonempty_len; eassumption).
      assert (Hn' : (0 < / INR n)%R) by now apply Rinv_0_lt_compat, lt_0_INR.
      assert (Hn1 : (0 < / INR n * Rsum (map exp incr))%R) by now apply Rmult_lt_0_compat.
      assert (Ell' : c_ll c j = Fin (ln (/ INR n * Rsum (map exp incr) * S0))) by (rewrite Ell; f_equal; symmetry; now apply ln_mult).
      assert (Ei : imp lowest (col (c_w c) j) = normal (map exp incr)).
      { rewrite (col_fin (c_w c) j); [rewrite Ew; apply imp_fin| |destruct Hc as [_ [_ H2] _ _]; lia].
        exact Hwf. }
      exists c. split; [exact Ec|]. split; [split; [exact Hc|rewrite Ex; now apply saw_good]|]. rewrite Ex. split; [rewrite T; now rewrite Tp|].
      rewrite (corrected_value c (map exp incr) _ f (Rmult_lt_0_compat _ _ Hn1 HS) Ell' Ei Hi0). apply sumto_ext. intros i Hi.
      assert (En : nth i (map exp incr) 0%R = (exp (real_of (nth i (v (fst (w r)) (snd (w r))) NaN)) * exp (- nth (nth i (a (fst (w r))) 0%nat) g 0))%R).
      { rewrite (nth_map' exp _ _ _ 0%R) by lia. unfold incr. rewrite (nth_map' _ _ _ _ (0%R, 0)) by (rewrite combine_length, length_reals, length_col; lia).
        rewrite combine_nth by (rewrite length_reals, length_col; lia). cbn [fst snd]. rewrite <- exp_plus. f_equal. unfold Rminus. f_equal.
        - rewrite nth_reals by lia. rewrite <- (nth_col vm i j NaN) by lia. now rewrite C2.
        - now rewrite Hanc. }
      rewrite En, Ex. rewrite <- (nth_col (ts_val (fst (sample_and_weight (O w) r y par zeros unif))) i j dflt) by lia. rewrite C1.
      unfold k. field. repeat split; (lra || (apply not_0_INR; lia)).
  Qed.

  (** * The loop *)
  Variable kd : kind.
  Hypothesis Hkd : (exists thr, kd = SISR thr) \/ kd = APF.
  Variable cf : fconf.
  Hypothesis Hevery : observe_every cf <> 0.
  Notation every := (observe_every cf).
  Notation lik := (likelihood move every).

  Lemma correct_value (w0 : filter_stream U D) y p f : usable y -> pok p -> movable (ts_time (p_x p)) (Some y) f ->
    exists F H, (forall u, supp LU u -> averages LD (F u) (H u)) /\ averages LU H (pvalue p (move (ts_time (p_x p)) (Some y) f)) /\
    forall w r, supp LU (fst (w r)) -> supp LD (snd (w r)) -> exists c, correct lowest (O w) kd r y p = Ok c /\ sok c /\
      ts_time (c_x c) = S (ts_time (p_x p)) /\ (exp (real_of (c_ll c j)) * value c f)%R = F (fst (w r)) (snd (w r)).
  Proof.
    intros Hy Hp Hm. destruct Hkd as [[thr ->] | ->]; [|now apply apf_value].
    destruct (sisr_value thr y p f Hy Hp Hm) as (F & HF & Hw). exists (fun _ => F), (fun _ => pvalue p (move (ts_time (p_x p)) (Some y) f)).
    split; [intros; exact HF|]. split; [now apply averages_const|]. intros w r _ Hd. now apply Hw.
  Qed.
  Definition settle (o : @oracle X (list xf)) (r : nat) (y : list xf) (p : pred X) : res (corr X) := if missing y then create_state lowest o r p else correct lowest o kd r y p.
  Lemma settle_local r y p w w' : w' r = w r -> settle (O w') r y p = settle (O w) r y p.
  Proof. intros E. unfold settle. now rewrite (create_local r p w w' E), (correct_local kd r y p w w' E). Qed.
  Lemma seen_missing y : seen y = if missing y then None else Some y.
  Proof. reflexivity. Qed.
  Lemma settle_value (w0 : filter_stream U D) y p f : (seen y <> None -> usable y) -> pok p -> movable (ts_time (p_x p)) (seen y) f ->
    exists F H, (forall u, supp LU u -> averages LD (F u) (H u)) /\ averages LU H (pvalue p (move (ts_time (p_x p)) (seen y) f)) /\
    forall w r, supp LU (fst (w r)) -> supp LD (snd (w r)) -> exists c, settle (O w) r y p = Ok c /\ sok c /\
      ts_time (c_x c) = S (ts_time (p_x p)) /\ (exp (real_of (c_ll c j)) * value c f)%R = F (fst (w r)) (snd (w r)).
  Proof.
    intros Hy Hp. rewrite seen_missing in *. unfold settle. destruct (missing y); intros Hm; [|apply correct_value; [exact w0|now apply Hy|exact Hp|exact Hm]].
    destruct (create_value p f Hp Hm) as (F & HF & Hw). exists (fun _ => F), (fun _ => pvalue p (move (ts_time (p_x p)) None f)).
    split; [intros; exact HF|]. split; [now apply averages_const|]. intros w r _ Hd.
    destruct (Hw w r Hd) as (c & Ec & Hc & T & El & Ev). exists c. rewrite El, exp_0, Rmult_1_l. auto.
  Qed.

  (** What is left to estimate from a prediction on. *)
  Definition pest (o : @oracle X (list xf)) (f1 f2 r : nat) (y : list xf) (ys : list (list xf)) (p : pred X) : R :=
    match advance lowest o kd cf f1 r p with
    | Some (Ok (q, r', _)) =>
        match settle o r' y q with
        | Ok c => (exp (real_of (c_ll c j)) * estimate j (batch_filter lowest o kd cf f2 (S r') ys c))%R
        | Raise _ => 0%R
        end
    | _ => 0%R
    end.
  Lemma create_ll (o : @oracle X (list xf)) r p c : create_state lowest o r p = Ok c -> c_ll c j = Fin 0.
  Proof. unfold create_state, mk_corr, bind. destruct (normalize_mat _) as [[? ?]|]; [|discriminate]. intros [= <-]. reflexivity. Qed.
  Lemma advance_ll (o : @oracle X (list xf)) : forall f1 r p q r' l, advance lowest o kd cf f1 r p = Some (Ok (q, r', l)) -> Rsum (map (fun c => real_of (c_ll c j)) l) = 0%R.
  Proof.
    induction f1 as [|f1 IH]; [discriminate|]. intros r p q r' l. cbn [advance]. destruct (every =? 0); [discriminate|].
    destruct (_ mod _ =? 0); [intros [= _ _ <-]; reflexivity|].
    destruct (create_state lowest o r p) as [c|] eqn:Ec; [|discriminate]. destruct (predict _ _ _ _ _) as [p'|]; [|discriminate].
    destruct (advance lowest o kd cf f1 (S (S r)) p') as [[[[q' r''] l']|]|] eqn:Ea; try discriminate. intros [= <- <- <-].
    apply IH in Ea. unfold Rsum in *. cbn [map fold_right]. rewrite Ea, (create_ll _ _ _ _ Ec). cbn [real_of]. ring.
  Qed.
  Lemma Rsum_app l l' : Rsum (l ++ l') = (Rsum l + Rsum l')%R.
  Proof. unfold Rsum. induction l as [|a l IH]; cbn [app fold_right]; [ring|rewrite IH; ring]. Qed.
  Lemma estimate_step (o : @oracle X (list xf)) f r y ys s p : predict lowest o kd r s = Ok p ->
    estimate j (batch_filter lowest o kd cf f r (y :: ys) s) = pest o f f (S r) y ys p.
  Proof.
    intros Ep. cbn [batch_filter]. unfold filter_step, pest, settle. rewrite Ep.
    destruct (advance lowest o kd cf f (S r) p) as [[[[q r'] l]|]|] eqn:Ea; [|reflexivity|reflexivity].
    destruct (if missing y then _ else _) as [c|]; [|reflexivity].
    destruct (batch_filter lowest o kd cf f (S r') ys c) as [[[[c' r''] l']|]|]; cbn [estimate]; [|ring|ring].
    rewrite !map_app, !Rsum_app, <- exp_plus. f_equal. cbn [map].
    assert (E : Rsum (map (fun c => real_of (c_ll c j)) (if record_intermediary cf then l else [])) = 0%R) by (destruct (record_intermediary cf); [eapply advance_ll; eassumption|reflexivity]).
    rewrite E. unfold Rsum. cbn [fold_right]. ring.
  Qed.

  Lemma until_0 t : until every t = 0 -> t mod every = 0.
  Proof.
    unfold until. intros H. pose proof (Nat.mod_upper_bound t every Hevery). destruct (Nat.eq_dec (t mod every) 0); [assumption|].
    rewrite Nat.mod_small in H by lia. lia.
  Qed.
  Lemma until_S t m : until every t = S m -> t mod every <> 0 /\ until every (S t) = m.
  Proof.
    unfold until. intros H. pose proof (Nat.mod_upper_bound t every Hevery) as Hb. destruct (Nat.eq_dec (t mod every) 0) as [E|E].
    - rewrite E, Nat.sub_0_r, Nat.mod_same in H by exact Hevery. discriminate.
    - split; [exact E|]. rewrite Nat.mod_small in H by lia.
      assert (Et : t = every * (t / every) + t mod every) by now apply Nat.div_mod.
      destruct (Nat.eq_dec m 0) as [->|Hm].
      + assert (Hs : S t mod every = 0).
        { replace (S t) with (0 + (t / every + 1) * every) by lia. rewrite Nat.mod_add by exact Hevery. now apply Nat.mod_0_l. }
        rewrite Hs, Nat.sub_0_r. now apply Nat.mod_same.
      + assert (Hs : S t mod every = S (t mod every)).
        { replace (S t) with (S (t mod every) + (t / every) * every) by lia. rewrite Nat.mod_add by exact Hevery. apply Nat.mod_small. lia. }
        rewrite Hs, Nat.mod_small by lia. lia.
  Qed.
  Lemma until_small t : until every t < every.
  Proof. apply Nat.mod_upper_bound, Hevery. Qed.

  Definition from_state (ys : list (list xf)) : Prop := Forall (fun y => seen y <> None -> usable y) ys ->
    forall f2 k r s w f G, every <= f2 -> sok s ->
    has_likelihood move movable every (ts_time (c_x s)) (map seen ys) -> draws every (ts_time (c_x s)) (map seen ys) <= k ->
    (forall w', agree r w w' -> f w' = (G * estimate j (batch_filter lowest (O w') kd cf f2 r ys s))%R) ->
    averages_over LU LD k r f w (G * value s (lik (ts_time (c_x s)) (map seen ys))).

  Lemma from_pred y ys : (seen y <> None -> usable y) -> Forall (fun y => seen y <> None -> usable y) ys -> from_state ys -> forall m f1 f2 k r p w f G, every <= f2 -> pok p ->
    let t := ts_time (p_x p) in until every t = m -> m < f1 ->
    let g := move (t + m) (seen y) (lik (S (t + m)) (map seen ys)) in
    hoppable move movable m t g -> movable (t + m) (seen y) (lik (S (t + m)) (map seen ys)) ->
    has_likelihood move movable every (S (t + m)) (map seen ys) ->
    1 + 2 * m + draws every (S (t + m)) (map seen ys) <= k ->
    (forall w', agree r w w' -> f w' = (G * pest (O w') f1 f2 r y ys p)%R) ->
    averages_over LU LD k r f w (G * pvalue p (hops move m t g)).
  Proof.
    intros Hy Hys IHys'. specialize (IHys' Hys) as IHys. clear IHys'. induction m as [|m IH]; intros f1 f2 k r p w f G Hf2 Hp t Hu Hf1 g Hh Hm Hl Hk Hest.
    - destruct k as [|k]; [lia|]. destruct f1 as [|f1]; [lia|]. cbn [hops]. unfold g in *. replace (t + 0) with t in * by lia.
      destruct (settle_value w y p _ Hy Hp Hm) as (F & H & HF & HH & Hw).
      apply over_step with (F := fun u d => (G * F u d)%R) (G := fun u => (G * H u)%R); [exact HU|exact HD| | |].
      + intros u d Hu' Hd. set (w1 := put w r (u, d)).
        assert (E1 : w1 r = (u, d)) by (unfold w1, put; now rewrite Nat.eqb_refl).
        destruct (Hw w1 r) as (c & Ec & Hc & Tc & Ev); [now rewrite E1|now rewrite E1|]. rewrite E1 in Ev. cbn [fst snd] in Ev.
        rewrite <- Ev, <- Rmult_assoc. fold t in Tc. rewrite <- Tc. apply (IHys f2); [exact Hf2|exact Hc|rewrite Tc; exact Hl|rewrite Tc; lia|].
        intros w' Ha. apply agree_put in Ha. destruct Ha as [E2 Ha]. rewrite (Hest w' Ha). unfold pest. cbn [advance].
        apply until_0 in Hu. fold t. rewrite Hu. destruct (Nat.eqb_spec every 0); [contradiction|]. cbn [Nat.eqb].
        rewrite (settle_local r y p w1 w') by congruence. rewrite Ec. ring.
      + intros u Hu'. apply averages_scal; [exact HD|]. now apply HF.
      + apply averages_scal; [exact HU|exact HH].
    - destruct k as [|[|k]]; [lia|lia|]. destruct f1 as [|f1]; [lia|]. destruct Hh as [Hh1 Hh2]. cbn [hops].
      destruct (until_S t m Hu) as [Hmod Hu1].
      destruct (create_value p _ Hp Hh1) as (F & HF & Hw). fold t in HF.
      apply over_step with (F := fun u d => (G * F d)%R) (G := fun u => (G * pvalue p (move t None (hops move m (S t) g)))%R); [exact HU|exact HD| | |].
      + intros u d Hu' Hd. set (w1 := put w r (u, d)).
        assert (E1 : w1 r = (u, d)) by (unfold w1, put; now rewrite Nat.eqb_refl).
        destruct (Hw w1 r) as (c & Ec & Hc & Tc & Ell & Ev); [now rewrite E1|]. rewrite E1 in Ev. cbn [fst snd] in Ev. fold t in Tc.
        destruct (predict_value w1 kd (S r) c (hops move m (S t) g) Hkd Hc) as (F2 & HF2 & Hw2).
        rewrite <- Ev.
        apply over_step with (F := fun u d => (G * F2 u)%R) (G := fun u => (G * F2 u)%R); [exact HU|exact HD| | |].
        * intros u2 d2 Hu2 Hd2. set (w2 := put w1 (S r) (u2, d2)).
          assert (E2 : w2 (S r) = (u2, d2)) by (unfold w2, put; now rewrite Nat.eqb_refl).
          destruct (Hw2 w2) as (p' & Ep & Hp' & Tp & Ev2); [now rewrite E2|]. rewrite E2 in Ev2. cbn [fst] in Ev2. rewrite <- Ev2.
          assert (Tp' : ts_time (p_x p') = S t) by congruence.
          assert (Eg : g = move (S t + m) (seen y) (lik (S (S t + m)) (map seen ys))) by (unfold g; now replace (t + S m) with (S t + m) by lia).
          rewrite Eg, <- Tp'. replace (t + S m) with (S t + m) in * by lia.
          apply (IH f1 f2); [exact Hf2|exact Hp'|rewrite Tp'; exact Hu1|lia|rewrite Tp', <- Eg; exact Hh2|rewrite Tp'; exact Hm|rewrite Tp'; exact Hl|rewrite Tp'; lia|].
          intros w' Ha. apply agree_put in Ha. destruct Ha as [E3 Ha]. apply agree_put in Ha. destruct Ha as [E4 Ha].
          rewrite (Hest w' Ha). unfold pest. cbn [advance]. fold t. destruct (Nat.eqb_spec every 0); [contradiction|].
          destruct (Nat.eqb_spec (t mod every) 0); [contradiction|].
          rewrite (create_local r p w1 w') by congruence. rewrite Ec. rewrite (predict_local kd (S r) c w2 w') by congruence. rewrite Ep.
          destruct (advance lowest (O w') kd cf f1 (S (S r)) p') as [[[[q r'] l]|]|]; reflexivity.
        * intros u2 _. now apply averages_const.
        * apply averages_scal; [exact HU|exact HF2].
      + intros u Hu'. apply averages_scal; [exact HD|exact HF].
      + now apply averages_const.
  Qed.

  Lemma from_states ys : from_state ys.
  Proof.
    induction ys as [|y ys IH]; intros Hys f2 k r s w f G Hf2 Hs Hl Hk Hest.
    - apply over_const; [exact HU|exact HD|]. intros w' Ha. rewrite (Hest w' Ha). cbn [batch_filter estimate map likelihood]. f_equal.
      unfold Rsum. cbn [fold_right]. rewrite exp_0. unfold value, spread.
      assert (HW : prob_vec (imp lowest (col (c_w s) j))) by (eapply (W_prob lowest); [exact Hn|apply Hs|exact Hj]).
      rewrite (sumto_ext n _ (fun i => nth i (imp lowest (col (c_w s) j)) 0%R)) by (intros; ring).
      assert (LW : length (imp lowest (col (c_w s) j)) = n) by (rewrite length_imp, length_col; apply (proj1 Hs)).
      rewrite <- LW, <- Rsum_nth. symmetry. apply HW.
    - inversion_clear Hys as [|z zs Hy Hys']. set (t := ts_time (c_x s)) in *. cbn [map likelihood has_likelihood draws] in *. destruct Hl as (Hh & Hm & Hl). destruct k as [|k]; [lia|].
      set (m := until every t) in *. set (g := move (t + m) (seen y) (lik (S (t + m)) (map seen ys))) in *.
      destruct (predict_value w kd r s (hops move m t g) Hkd Hs) as (F & HF & Hw).
      apply over_step with (F := fun u d => (G * F u)%R) (G := fun u => (G * F u)%R); [exact HU|exact HD| | |].
      + intros u d Hu Hd. set (w1 := put w r (u, d)).
        assert (E1 : w1 r = (u, d)) by (unfold w1, put; now rewrite Nat.eqb_refl).
        destruct (Hw w1) as (p & Ep & Hp & Tp & Ev); [now rewrite E1|]. rewrite E1 in Ev. cbn [fst] in Ev. rewrite <- Ev. fold t in Tp.
        unfold g. rewrite <- Tp. apply (from_pred y ys Hy Hys' IH m f2 f2); rewrite ?Tp; try assumption; try reflexivity.
        * pose proof (until_small t). unfold m. lia.
        * lia.
        * intros w' Ha. apply agree_put in Ha. destruct Ha as [E2 Ha]. rewrite (Hest w' Ha). f_equal. apply estimate_step.
          rewrite (predict_local kd r s w1 w') by congruence. exact Ep.
      + intros u _. now apply averages_const.
      + apply averages_scal; [exact HU|exact HF].
  Qed.
End Run.
