(** Systematic resampling in floating point arithmetic. *)
From Coq Require Import ZArith Reals List Bool Lia Lra Sorted.
From Flocq Require Import Core.Core IEEE754.BinarySingleNaN.
From Coquelicot Require Import Rcomplements.
From Verif.Model Require Import Base FloatResampling.
From Verif.Spec Require Import WeightsSpec ResamplingSpec.
From Verif.Proofs Require ResamplingProofs.
From Verif.Proofs Require Import FloatProofs.
Import ListNotations.
Open Scope R_scope.

(** Validity and order of the indices, whatever the running sums are. *)
Section Valid.
  Context {prec emax : Z} {Hp : Prec_gt_0 prec} {He : Prec_lt_emax prec emax}.
  Notation float := (binary_float prec emax).
  Variables (how : division) (cum : list float) (u : float).
  Notation n := (length cum).
  Hypothesis Hn : cum <> [].
  Hypothesis Hlast : nth (n - 1) cum B754_nan = Bone.
  Hypothesis Hbig : INR n <= bpow radix2 prec.
  Hypothesis Hwide : (prec + 3 <= emax)%Z.
  Hypothesis Fu : is_finite u = true.
  Hypothesis Hu : 0 <= B2R u <= 1.

  Lemma n_pos : (0 < n)%nat. Proof. destruct cum; [congruence|simpl; lia]. Qed.

  Definition selected (k : nat) : nat := searchsorted cum (grid how n u k).

  Lemma selected_lt k : (k < n)%nat -> (selected k < n)%nat.
  Proof.
    intros Hk. pose proof n_pos as Hn0. destruct (searchsorted_spec cum (grid how n u k)) as (A & B & C).
    fold (selected k) in *. destruct (Nat.eq_dec (selected k) n) as [E|E]; [|lia].
    exfalso. rewrite E in C. destruct C as [C|C]; [lia|]. rewrite Hlast in C.
    destruct (grid_ok n u Hn0 Hbig Hwide Fu Hu how k Hk) as (F & V).
    assert (T : Bleb (grid how n u k) Bone = true); [|congruence].
    apply Bleb_le; [exact F|apply Bone_F|]. rewrite V, Bone_R. now apply grid_value_range.
  Qed.

  Lemma selected_mono k k' : (k < k')%nat -> (k' < n)%nat -> (selected k <= selected k')%nat.
  Proof.
    intros H H'. pose proof n_pos as Hn0. unfold selected, searchsorted. apply lower_bound_mono; [|lia|lia].
    destruct (grid_ok n u Hn0 Hbig Hwide Fu Hu how k ltac:(lia)) as (F & V).
    destruct (grid_ok n u Hn0 Hbig Hwide Fu Hu how k' ltac:(lia)) as (F' & V').
    intros i. apply Bleb_down; try assumption. rewrite V, V'. now apply grid_value_mono.
  Qed.

  Lemma selected_sorted : forall m s, (s + m <= n)%nat -> StronglySorted le (map selected (seq s m)).
  Proof.
    induction m as [|m IH]; intros s H; simpl; constructor.
    - apply IH. lia.
    - apply Forall_forall. intros x Hx. apply in_map_iff in Hx. destruct Hx as (k & <- & Hk). apply in_seq in Hk.
      apply selected_mono; lia.
  Qed.
End Valid.

(** The running sums. *)
Section Cumsum.
  Context {prec emax : Z} {Hp : Prec_gt_0 prec} {He : Prec_lt_emax prec emax}.
  Context {prec' emax' : Z} {Hp' : Prec_gt_0 prec'} {He' : Prec_lt_emax prec' emax'}.
  Notation float := (binary_float prec emax).
  Notation acc := (binary_float prec' emax').
  Notation rnd := (@FloatProofs.rnd prec emax).
  Notation rnd' := (@FloatProofs.rnd prec' emax').
  Notation fmt := (@FloatProofs.fmt prec emax).
  Notation fmt' := (@FloatProofs.fmt prec' emax').
  Notation eps := (@FloatProofs.eps prec).
  Notation eps' := (@FloatProofs.eps prec').
  Hypothesis Hprec : (prec <= prec')%Z.
  Hypothesis Hemax : (emax <= emax')%Z.

  Lemma fmt_up x : fmt x -> fmt' x.
  Proof.
    apply generic_inclusion_mag. intros _. rewrite !fe_eq, !emin_eq. lia.
  Qed.
  Lemma eps_up : eps' <= eps.
  Proof. unfold FloatProofs.eps. apply bpow_le. lia. Qed.

  Lemma convert_ok {p e p' e'} {Hq : Prec_gt_0 p'} {Hr : Prec_lt_emax p' e'} (x : binary_float p e) :
    is_finite x = true -> Rabs (B2R x) <= bpow radix2 (e' - 1) ->
    is_finite (convert x : binary_float p' e') = true /\ B2R (convert x : binary_float p' e') = @FloatProofs.rnd p' e' (B2R x).
  Proof.
    intros F H. destruct x as [s|s| |s m e0 Hb]; try discriminate F.
    - simpl. split; [reflexivity|]. now rewrite rnd_0.
    - cbn [convert]. pose proof (binary_normalize_correct p' e' Hq Hr mode_NE (cond_Zopp s (Z.pos m)) e0 s) as C.
      cbv zeta in C. change (round_mode mode_NE) with ZnearestE in C. cbn [B2R] in H |- *.
      fold (@FloatProofs.rnd p' e' (F2R (Float radix2 (cond_Zopp s (Z.pos m)) e0))) in C.
      rewrite (no_overflow _ H) in C. destruct C as (C1 & C2 & _). split; assumption.
  Qed.

  Fixpoint run (a : R) (l : list R) (i : nat) {struct i} : R :=
    match i, l with S i, x :: r => run (rnd' (a + x)) r i | _, _ => a end.

  Lemma run_S : forall i a l, (i < length l)%nat -> run a l (S i) = rnd' (run a l i + nth i l 0).
  Proof.
    induction i as [|i IH]; intros a l Hi; destruct l as [|x l]; simpl in Hi; try lia.
    - simpl. destruct l; reflexivity.
    - change (run a (x :: l) (S (S i))) with (run (rnd' (a + x)) l (S i)).
      change (run a (x :: l) (S i)) with (run (rnd' (a + x)) l i). simpl nth. apply IH. lia.
  Qed.

  Lemma psum_step : forall i l, (i < length l)%nat -> psum l (S i) = psum l i + nth i l 0.
  Proof.
    unfold psum. induction i as [|i IH]; intros l Hi; destruct l as [|x l]; simpl in Hi; try lia.
    - unfold Rsum; simpl. lra.
    - specialize (IH l ltac:(lia)). cbn [firstn nth] in *. unfold Rsum in *. cbn [fold_right] in *. lra.
  Qed.

  Variable w : list float.
  Notation n := (length w).
  Hypothesis Fw : forall x, In x w -> is_finite x = true.
  Hypothesis Pw : forall x, In x w -> 0 <= B2R x.
  Notation wr := (map B2R w).
  Hypothesis Hsum : Rsum wr <= 3 / 2.
  Hypothesis Hn' : INR n * eps' <= / 8.

  Lemma wr_nonneg x : In x wr -> 0 <= x.
  Proof. intros H. apply in_map_iff in H. destruct H as (y & <- & Hy). now apply Pw. Qed.
  Lemma wr_nth i : 0 <= nth i wr 0.
  Proof.
    destruct (Nat.lt_ge_cases i (length wr)) as [H|H]; [apply wr_nonneg, nth_In, H|]. rewrite nth_overflow by lia. lra.
  Qed.
  Lemma psum_le_all i : psum wr i <= Rsum wr.
  Proof.
    unfold psum. rewrite <- (firstn_skipn i wr) at 2.
    assert (G : forall a b : list R, Rsum (a ++ b) = Rsum a + Rsum b).
    { unfold Rsum. induction a; intros b; simpl; [lra|]. rewrite IHa. lra. }
    rewrite G. assert (0 <= Rsum (skipn i wr)); [|lra].
    assert (P : forall l, (forall x, In x l -> 0 <= x) -> 0 <= Rsum l).
    { unfold Rsum. induction l; intros H; simpl; [lra|]. pose proof (H a (or_introl eq_refl)).
      specialize (IHl ltac:(intros; apply H; now right)). lra. }
    apply P. intros x Hx. apply wr_nonneg. rewrite <- (firstn_skipn i wr). apply in_or_app. now right.
  Qed.

  Lemma run_bounds i : (i <= n)%nat ->
    fmt' (run 0 wr i) /\ 0 <= run 0 wr i /\ Rabs (run 0 wr i - psum wr i) <= 2 * INR i * eps'.
  Proof.
    induction i as [|i IH]; intros Hi.
    - simpl. split; [apply fmt_0|]. split; [lra|]. unfold psum, Rsum; simpl. rewrite Rabs_pos_eq; lra.
    - destruct (IH ltac:(lia)) as (A & B & C). rewrite run_S, psum_step by (rewrite map_length; lia).
      pose proof (wr_nth i) as Hw. pose proof (psum_le_all (S i)) as Hs.
      rewrite psum_step in Hs by (rewrite map_length; lia). apply Rabs_le_between in C.
      assert (Hin : INR i <= INR n) by (apply le_INR; lia). pose proof (eps_pos (prec := prec')) as He0.
      assert (INR i * eps' <= INR n * eps') by (apply Rmult_le_compat_r; lra).
      assert (Hx : Rabs (run 0 wr i + nth i wr 0) <= 2) by (rewrite Rabs_pos_eq by lra; lra).
      pose proof (rnd_error_2 (prec := prec') (emax := emax') _ Hx) as Hr. apply Rabs_le_between in Hr.
      split; [apply fmt_rnd|]. split; [apply rnd_nonneg; lra|]. apply Rabs_le. rewrite S_INR. lra.
  Qed.

  Lemma run_top i : (i <= n)%nat -> run 0 wr i <= 7 / 4.
  Proof.
    intros Hi. destruct (run_bounds i Hi) as (_ & _ & C). apply Rabs_le_between in C. pose proof (psum_le_all i).
    assert (INR i <= INR n) by (apply le_INR; lia). pose proof (eps_pos (prec := prec')).
    assert (INR i * eps' <= INR n * eps') by (apply Rmult_le_compat_r; lra). lra.
  Qed.

  Lemma run_step i : (i < n)%nat ->
    run 0 wr i <= run 0 wr (S i) /\ Rabs (run 0 wr (S i) - run 0 wr i - nth i wr 0) <= 2 * eps'.
  Proof.
    intros Hi. rewrite run_S by (rewrite map_length; lia). destruct (run_bounds i ltac:(lia)) as (A & B & C).
    pose proof (wr_nth i) as Hw. split.
    - apply rnd_ge_fmt; [exact A|lra].
    - assert (Hx : Rabs (run 0 wr i + nth i wr 0) <= 2).
      { rewrite Rabs_pos_eq by lra. apply Rabs_le_between in C. pose proof (psum_le_all (S i)) as Hs.
        rewrite psum_step in Hs by (rewrite map_length; lia).
        assert (INR i <= INR n) by (apply le_INR; lia). pose proof (eps_pos (prec := prec')).
        assert (INR i * eps' <= INR n * eps') by (apply Rmult_le_compat_r; lra). lra. }
      pose proof (rnd_error_2 (prec := prec') (emax := emax') _ Hx) as Hr. apply Rabs_le_between in Hr. apply Rabs_le. lra.
  Qed.

  Hypothesis Hwide : (prec + 3 <= emax)%Z.

  Lemma small_ok : 2 <= bpow radix2 (emax - 1).
  Proof. change 2 with (bpow radix2 1). apply bpow_le. pose proof (prec_pos (prec := prec)). lia. Qed.
  Lemma small_ok' : 2 <= bpow radix2 (emax' - 1).
  Proof. change 2 with (bpow radix2 1). apply bpow_le. pose proof (prec_pos (prec := prec)). lia. Qed.

  Lemma length_cumsum_from : forall (l : list float) (a : acc), length (cumsum_from a l) = length l.
  Proof. induction l; intros a0; simpl; [reflexivity|]. now rewrite IHl. Qed.

  (** Entry [i] of the running sums. *)
  Lemma cumsum_nth : forall i (l : list float) (a : acc),
    (i < length l)%nat -> is_finite a = true ->
    (forall x, In x l -> is_finite x = true) -> (forall x, In x l -> Rabs (B2R x) <= 2) ->
    (forall j, (j < length l)%nat -> Rabs (run (B2R a) (map B2R l) j + nth j (map B2R l) 0) <= 2) ->
    is_finite (nth i (cumsum_from a l) B754_nan) = true /\
    B2R (nth i (cumsum_from a l) B754_nan) = rnd (run (B2R a) (map B2R l) (S i)).
  Proof.
    pose proof small_ok as S1. pose proof small_ok' as S2.
    induction i as [|i IH]; intros l a Hi Fa Fl Bl Hj; destruct l as [|x l]; simpl in Hi; try lia.
    - pose proof (Hj 0%nat ltac:(simpl; lia)) as H0. simpl in H0.
      destruct (convert_ok (p' := prec') (e' := emax') x) as (F1 & E1); [apply Fl; now left| |].
      { apply Rle_trans with 2; [apply Bl; now left|exact S2]. }
      rewrite (rnd_id (prec := prec') (emax := emax')) in E1 by (apply fmt_up, fmt_B2R).
      destruct (fadd_ok a (convert x)) as (F2 & E2); [exact Fa|exact F1|rewrite E1; lra|]. rewrite E1 in E2.
      cbn [cumsum_from nth map run]. apply (convert_ok (p' := prec) (e' := emax) (fadd a (convert x))) in F2.
      + fold (fadd a (convert x)). rewrite E2 in F2. exact F2.
      + rewrite E2. apply Rle_trans with 2; [|exact S1].
        apply abs_round_le_generic; [apply fe_valid|apply valid_rnd_N| |exact H0].
        change 2 with (bpow radix2 1). apply fmt_bpow. rewrite emin_eq. pose proof (prec_pos (prec := prec')). pose proof (prec_emax (prec := prec') (emax := emax')). lia.
    - pose proof (Hj 0%nat ltac:(simpl; lia)) as H0. simpl in H0.
      destruct (convert_ok (p' := prec') (e' := emax') x) as (F1 & E1); [apply Fl; now left| |].
      { apply Rle_trans with 2; [apply Bl; now left|exact S2]. }
      rewrite (rnd_id (prec := prec') (emax := emax')) in E1 by (apply fmt_up, fmt_B2R).
      destruct (fadd_ok a (convert x)) as (F2 & E2); [exact Fa|exact F1|rewrite E1; lra|]. rewrite E1 in E2.
      cbn [cumsum_from nth map]. fold (fadd a (convert x)).
      change (run (B2R a) (B2R x :: map B2R l) (S (S i))) with (run (rnd' (B2R a + B2R x)) (map B2R l) (S i)).
      rewrite <- E2. apply IH; [lia|exact F2| | |].
      + intros y Hy. apply Fl. now right.
      + intros y Hy. apply Bl. now right.
      + intros j Hjl. rewrite E2. apply (Hj (S j)). simpl. lia.
  Qed.

  Definition partial (i : nat) : R := rnd (run 0 wr (S i)).

  Lemma w_le_2 x : In x w -> B2R x <= 3 / 2.
  Proof.
    intros Hx. apply (In_nth w x B754_nan) in Hx. destruct Hx as (i & Hi & <-).
    pose proof (psum_le_all (S i)) as H. rewrite psum_step in H by (rewrite map_length; exact Hi).
    rewrite (nth_indep wr 0 (B2R (B754_nan : float))) in H by (rewrite map_length; exact Hi). rewrite map_nth in H.
    assert (0 <= psum wr i); [|lra].
    clear H. induction i as [|i IH]; [unfold psum, Rsum; simpl; lra|].
    rewrite psum_step by (rewrite map_length; lia). pose proof (wr_nth i). specialize (IH ltac:(lia)). lra.
  Qed.

  Lemma partial_ok i : (i < n)%nat ->
    is_finite (nth i (cpu_cumsum prec' emax' w) B754_nan) = true /\
    B2R (nth i (cpu_cumsum prec' emax' w) B754_nan) = partial i.
  Proof.
    intros Hi. unfold cpu_cumsum, partial. apply (cumsum_nth i w (B754_zero false)).
    - exact Hi.
    - reflexivity.
    - exact Fw.
    - intros x Hx. pose proof (Pw x Hx). pose proof (w_le_2 x Hx). rewrite Rabs_pos_eq; lra.
    - intros j Hj. simpl (B2R (B754_zero false)). destruct (run_bounds j ltac:(lia)) as (A & B & C).
      pose proof (wr_nth j) as Hw.
      rewrite Rabs_pos_eq by lra. apply Rabs_le_between in C. pose proof (psum_le_all (S j)) as Hs.
      rewrite psum_step in Hs by (rewrite map_length; lia).
      assert (INR j <= INR n) by (apply le_INR; lia). pose proof (eps_pos (prec := prec')).
      assert (INR j * eps' <= INR n * eps') by (apply Rmult_le_compat_r; lra). lra.
  Qed.

  Lemma partial_nonneg i : (i < n)%nat -> 0 <= partial i.
  Proof. intros Hi. apply rnd_nonneg. now apply (run_bounds (S i)). Qed.

  Lemma partial_mono i j : (i <= j)%nat -> (j < n)%nat -> partial i <= partial j.
  Proof.
    intros Hij Hj. apply rnd_le. induction Hij as [|j Hij IH]; [lra|].
    eapply Rle_trans; [apply IH; lia|]. apply run_step. lia.
  Qed.

  Lemma run_rnd i : (i <= n)%nat -> Rabs (rnd (run 0 wr i) - run 0 wr i) <= 2 * eps.
  Proof.
    intros Hi. apply rnd_error_2. destruct (run_bounds i Hi) as (_ & B & _). pose proof (run_top i Hi).
    rewrite Rabs_pos_eq; lra.
  Qed.

  Lemma partial_step i : (0 < i)%nat -> (i < n)%nat -> Rabs (partial i - partial (i - 1) - nth i wr 0) <= 6 * eps.
  Proof.
    intros H0 Hi. unfold partial. replace (S (i - 1)) with i by lia.
    pose proof (run_rnd i ltac:(lia)) as R1. pose proof (run_rnd (S i) ltac:(lia)) as R2.
    destruct (run_step i Hi) as (_ & R3). pose proof eps_up.
    apply Rabs_le_between in R1, R2, R3. apply Rabs_le. lra.
  Qed.
  Lemma partial_first : (0 < n)%nat -> Rabs (partial 0 - nth 0 wr 0) <= 4 * eps.
  Proof.
    intros Hi. unfold partial. pose proof (run_rnd 1 ltac:(lia)) as R2.
    destruct (run_step 0 Hi) as (_ & R3). pose proof eps_up. change (run 0 wr 0) with 0 in R3.
    apply Rabs_le_between in R2, R3. apply Rabs_le. lra.
  Qed.
  Lemma partial_error i : (i < n)%nat -> Rabs (partial i - psum wr (S i)) <= 2 * eps + 2 * INR n * eps'.
  Proof.
    intros Hi. unfold partial. pose proof (run_rnd (S i) ltac:(lia)) as R1. destruct (run_bounds (S i) ltac:(lia)) as (_ & _ & R2).
    assert (INR (S i) <= INR n) by (apply le_INR; lia). pose proof (eps_pos (prec := prec')).
    assert (INR (S i) * eps' <= INR n * eps') by (apply Rmult_le_compat_r; lra).
    apply Rabs_le_between in R1, R2. apply Rabs_le. lra.
  Qed.

  Lemma partial_zero i : (0 < i)%nat -> (i < n)%nat -> nth i wr 0 = 0 -> partial i = partial (i - 1).
  Proof.
    intros H0 Hi Hz. unfold partial. replace (S (i - 1)) with i by lia. f_equal.
    rewrite run_S by (rewrite map_length; lia). rewrite Hz, Rplus_0_r. apply rnd_id, run_bounds. lia.
  Qed.
  Lemma partial_zero_first : (0 < n)%nat -> nth 0 wr 0 = 0 -> partial 0 = 0.
  Proof.
    intros Hi Hz. unfold partial. rewrite run_S by (rewrite map_length; lia). change (run 0 wr 0) with 0.
    rewrite Hz, Rplus_0_r, !rnd_0. reflexivity.
  Qed.
End Cumsum.

(** How often each index is selected. *)
Section Copies.
  Context {prec emax : Z} {Hp : Prec_gt_0 prec} {He : Prec_lt_emax prec emax}.
  Context {prec' emax' : Z} {Hp' : Prec_gt_0 prec'} {He' : Prec_lt_emax prec' emax'}.
  Notation float := (binary_float prec emax).
  Notation eps := (@FloatProofs.eps prec).
  Notation eps' := (@FloatProofs.eps prec').
  Hypothesis Hprec : (prec <= prec')%Z.
  Hypothesis Hemax : (emax <= emax')%Z.
  Hypothesis Hwide : (prec + 3 <= emax)%Z.
  Variable w : list float.
  Notation n := (length w).
  Notation wr := (map B2R w).
  Hypothesis Hn : w <> [].
  Hypothesis Fw : forall x, In x w -> is_finite x = true.
  Hypothesis Pw : forall x, In x w -> 0 <= B2R x.
  Hypothesis Hsum : Rsum wr <= 3 / 2.
  Hypothesis Hn' : INR n * eps' <= / 8.
  Hypothesis Hbig : INR n <= bpow radix2 prec.
  Variables (how : division) (u : float).
  Hypothesis Fu : is_finite u = true.
  Hypothesis Hu : 0 <= B2R u <= 1.

  Notation part := (@partial prec emax prec' emax' w).
  Definition cum : list float := set_last Bone (cpu_cumsum prec' emax' w).

  Lemma length_cum : length cum = n.
  Proof. unfold cum, cpu_cumsum. now rewrite length_set_last, length_cumsum_from. Qed.
  Lemma w_pos : (0 < n)%nat. Proof. destruct w; [congruence|simpl; lia]. Qed.

  Lemma cum_last : nth (n - 1) cum B754_nan = Bone.
  Proof.
    unfold cum. rewrite <- (length_cumsum_from w (B754_zero false : binary_float prec' emax')) at 1.
    apply nth_set_last_last. intros E. pose proof w_pos.
    assert (L : length (cpu_cumsum prec' emax' w) = n) by apply length_cumsum_from. unfold cpu_cumsum in *. rewrite E in L. simpl in L. lia.
  Qed.
  Lemma cum_other i : (i < n - 1)%nat -> nth i cum B754_nan = nth i (cpu_cumsum prec' emax' w) B754_nan.
  Proof. intros Hi. unfold cum. apply nth_set_last_other. unfold cpu_cumsum. now rewrite length_cumsum_from. Qed.

  Definition sel (k : nat) : nat := searchsorted cum (grid how n u k).

  (** Index [k] of the result is at most [i] exactly when the grid number is at most running sum [i]. *)
  Lemma sel_le k i : (k < n)%nat -> (i < n)%nat ->
    (sel k <= i)%nat <-> (i = n - 1)%nat \/ grid_value n u how k <= part i.
  Proof.
    intros Hk Hi. pose proof w_pos as Hn0.
    destruct (grid_ok n u Hn0 Hbig Hwide Fu Hu how k Hk) as (F & V).
    pose proof (grid_value_range n u Hn0 Hbig Hwide Hu how k Hk) as Hv.
    assert (P1 : Bleb (grid how n u k) (nth (n - 1) cum B754_nan) = true).
    { rewrite cum_last. apply Bleb_le; [exact F|apply Bone_F|]. rewrite V, Bone_R. lra. }
    assert (P2 : forall j, (j < n - 1)%nat -> Bleb (grid how n u k) (nth j cum B754_nan) = true <-> grid_value n u how k <= part j).
    { intros j Hj. rewrite cum_other by exact Hj.
      destruct (partial_ok Hprec Hemax w Fw Pw Hsum Hn' Hwide j ltac:(lia)) as (Fj & Ej).
      rewrite Bleb_le by assumption. now rewrite V, Ej. }
    destruct (searchsorted_spec cum (grid how n u k)) as (A & B & C). rewrite length_cum in *. fold (sel k) in *.
    assert (Hlt : (sel k < n)%nat).
    { destruct (Nat.eq_dec (sel k) n) as [E|E]; [|lia]. rewrite E in C. destruct C as [C|C]; [lia|]. congruence. }
    destruct B as [B|B]; [lia|].
    split.
    - intros Hle. destruct (Nat.eq_dec i (n - 1)) as [->|Hne]; [now left|right].
      apply P2 in B; [|lia]. eapply Rle_trans; [exact B|]. apply partial_mono; try assumption; lia.
    - intros [->|Hle]; [lia|]. destruct (Nat.eq_dec i (n - 1)) as [->|Hne]; [lia|].
      destruct (Nat.le_gt_cases (sel k) i) as [|Hgt]; [assumption|exfalso].
      destruct C as [C|C]; [lia|].
      assert (T : Bleb (grid how n u k) (nth (sel k - 1) cum B754_nan) = true); [|congruence].
      destruct (Nat.eq_dec (sel k - 1) (n - 1)) as [->|Hne']; [exact P1|].
      apply P2; [lia|]. eapply Rle_trans; [exact Hle|]. apply partial_mono; try assumption; lia.
  Qed.

  Definition upto_count (i : nat) : nat := length (filter (fun j => (j <=? i)%nat) (map sel (seq 0 n))).

  Lemma filter_count_le {A} (p q : A -> bool) l : (forall x, In x l -> p x = true -> q x = true) ->
    (length (filter p l) <= length (filter q l))%nat.
  Proof.
    induction l as [|a l IH]; intros H; simpl; [lia|]. specialize (IH (fun x Hx => H x (or_intror Hx))).
    destruct (p a) eqn:E; [rewrite (H a (or_introl eq_refl) E); simpl; lia|]. destruct (q a); simpl; lia.
  Qed.
  Lemma filter_map_count {A B} (f : A -> B) (p : B -> bool) l : length (filter p (map f l)) = length (filter (fun x => p (f x)) l).
  Proof. induction l as [|a l IH]; simpl; [reflexivity|]. destruct (p (f a)); simpl; lia. Qed.

  Lemma count_last : upto_count (n - 1) = n.
  Proof.
    unfold upto_count. rewrite filter_map_count. pose proof w_pos.
    assert (G : forall l, (forall k, In k l -> (k < n)%nat) -> length (filter (fun k => (sel k <=? n - 1)%nat) l) = length l).
    { induction l as [|k l IH]; intros Hl; [reflexivity|]. simpl.
      assert (E : (sel k <=? n - 1)%nat = true).
      { apply Nat.leb_le. apply sel_le; [apply Hl; now left|lia|now left]. }
      rewrite E. simpl. rewrite IH; [reflexivity|]. intros; apply Hl; now right. }
    rewrite G; [apply seq_length|]. intros k Hk. apply in_seq in Hk. lia.
  Qed.

  Lemma n_ge_1 : 1 <= INR n.
  Proof. change 1 with (INR 1). apply le_INR. pose proof w_pos. lia. Qed.

  (** The number of indices up to [i], for all but the last. *)
  Lemma count_bounds i over : (i < n - 1)%nat -> 0 <= over -> part i <= 1 + over ->
    INR n * (part i - over - 4 * eps) - B2R u <= INR (upto_count i) <= INR n * (part i + 4 * eps) - B2R u + 1.
  Proof.
    intros Hi Ho Hov. pose proof w_pos as Hn0. pose proof n_ge_1 as H1. pose proof (eps_pos (prec := prec)) as Pe.
    assert (Hpp : 0 <= part i).
    { apply partial_nonneg; try assumption. lia. }
    assert (Hg : forall k, (k < n)%nat -> (INR k + B2R u) / INR n - 4 * eps <= grid_value n u how k <= (INR k + B2R u) / INR n + 4 * eps).
    { intros k Hk. pose proof (grid_value_error n u Hn0 Hbig Hwide Hu how k Hk) as H. apply Rabs_le_between in H. lra. }
    assert (Hdiv : forall a b, a / INR n <= b <-> a <= INR n * b).
    { intros a b. split; intros H.
      - apply Rmult_le_compat_l with (r := INR n) in H; [|lra]. replace (INR n * (a / INR n)) with a in H by (field; lra). exact H.
      - apply Rmult_le_reg_l with (INR n); [lra|]. replace (INR n * (a / INR n)) with a by (field; lra). exact H. }
    unfold upto_count. rewrite filter_map_count. split.
    - set (t := INR n * (part i - 4 * eps) - B2R u). assert (Et : t = INR n * (part i - 4 * eps) - B2R u) by reflexivity.
      clearbody t.
      apply Rle_trans with (INR (ResamplingProofs.upto t n)).
      + destruct (ResamplingProofs.upto_spec t n) as (_ & _ & U). destruct U as [->|U].
        * assert (INR n * (part i - over - 4 * eps) <= INR n * 1); [|lra]. apply Rmult_le_compat_l; lra.
        * assert (INR n * (part i - over - 4 * eps) <= INR n * (part i - 4 * eps)); [|lra]. apply Rmult_le_compat_l; lra.
      + apply le_INR. unfold ResamplingProofs.upto. apply filter_count_le. intros k Hk Hle. apply in_seq in Hk.
        destruct (Rle_dec (INR k) t) as [Ht|]; [|discriminate]. apply Nat.leb_le, sel_le; [lia|lia|]. right.
        destruct (Hg k ltac:(lia)) as (_ & Hg2). eapply Rle_trans; [exact Hg2|].
        assert ((INR k + B2R u) / INR n <= part i - 4 * eps); [|lra]. apply Hdiv. lra.
    - set (t := INR n * (part i + 4 * eps) - B2R u).
      assert (Ht0 : - 1 <= t).
      { unfold t. assert (0 <= INR n * (part i + 4 * eps)) by (apply Rmult_le_pos; lra). lra. }
      apply Rle_trans with (INR (ResamplingProofs.upto t n)).
      + apply le_INR. unfold ResamplingProofs.upto. apply filter_count_le. intros k Hk Hle. apply in_seq in Hk.
        apply Nat.leb_le, sel_le in Hle; [|lia|lia]. destruct Hle as [Hle|Hle]; [lia|].
        destruct (Rle_dec (INR k) t) as [Ht|Ht]; [reflexivity|]. exfalso. apply Ht.
        destruct (Hg k ltac:(lia)) as (Hg1 & _).
        assert (H2 : (INR k + B2R u) / INR n <= part i + 4 * eps) by lra. apply Hdiv in H2. unfold t. lra.
      + destruct (ResamplingProofs.upto_spec t n) as (_ & U & _). destruct U as [->|U]; [simpl; lra|lra].
  Qed.

  Lemma copies_float tau i : Rabs (Rsum wr - 1) <= tau -> (i < n)%nat ->
    Rabs (INR (copies i (map sel (seq 0 n))) - INR n * nth i wr 0) <=
    1 + INR n * (tau + 16 * eps + 2 * INR n * eps').
  Proof.
    intros Ht Hi. pose proof w_pos as Hn0. pose proof n_ge_1 as H1. pose proof (eps_pos (prec := prec)) as Pe.
    pose proof (eps_pos (prec := prec')) as Pe'. apply Rabs_le_between in Ht.
    assert (Pn : 0 <= INR n * eps') by (apply Rmult_le_pos; lra).
    set (over := tau + 2 * eps + 2 * (INR n * eps')).
    assert (Ho : 0 <= over) by (unfold over; lra).
    assert (Hov : forall j, (j < n)%nat -> part j <= 1 + over).
    { intros j Hj. pose proof (partial_error w Pw Hsum Hn' j Hj) as E.
      apply Rabs_le_between in E. pose proof (psum_le_all w Pw (S j)). unfold over. lra. }
    pose proof (ResamplingProofs.copies_split i (map sel (seq 0 n))) as Hsplit.
    fold (upto_count i) in Hsplit.
    assert (Hprev : (i = 0%nat /\ copies i (map sel (seq 0 n)) = upto_count i) \/
                    ((0 < i)%nat /\ INR (copies i (map sel (seq 0 n))) = INR (upto_count i) - INR (upto_count (i - 1)))).
    { destruct (Nat.eq_dec i 0) as [->|Hne].
      - left. split; [reflexivity|]. simpl in Hsplit.
        assert (E0 : forall l : list nat, filter (fun _ => false) l = []) by (clear; induction l; auto).
        rewrite E0 in Hsplit. simpl in Hsplit. lia.
      - right. split; [lia|]. destruct (i =? 0)%nat eqn:E; [apply Nat.eqb_eq in E; lia|].
        fold (upto_count (i - 1)) in Hsplit. rewrite <- Hsplit, plus_INR. lra. }
    destruct (Nat.eq_dec i (n - 1)) as [El|Nl].
    - (* the last particle: everything that is left *)
      assert (Hw : psum wr i + nth i wr 0 = Rsum wr).
      { rewrite <- psum_step by (rewrite map_length; exact Hi). unfold psum. rewrite firstn_all2; [reflexivity|].
        rewrite map_length. lia. }
      assert (Hc : upto_count i = n) by (rewrite El; apply count_last).
      destruct Hprev as [(Ei & E)|(Ei & E)].
      + rewrite E, Hc. assert (En : n = 1%nat) by lia. rewrite En in *. change (INR 1) with 1 in *.
        rewrite Ei in Hw at 1. change (psum wr 0) with 0 in Hw. apply Rabs_le. lra.
      + rewrite E, Hc. destruct (count_bounds (i - 1) over ltac:(lia) Ho (Hov (i - 1)%nat ltac:(lia))) as (L & U).
        pose proof (partial_error w Pw Hsum Hn' (i - 1) ltac:(lia)) as P. replace (S (i - 1)) with i in P by lia.
        apply Rabs_le_between in P. pose proof (Hov (i - 1)%nat ltac:(lia)) as Hov1.
        set (c := part (i - 1)) in *. set (x := nth i wr 0) in *. set (p := psum wr i) in *.
        set (N := INR n) in *.
        assert (A1 : N * (c + 4 * eps) <= N * (1 - x + tau + 6 * eps + 2 * (N * eps'))) by (apply Rmult_le_compat_l; lra).
        assert (A2 : N * (1 - x - tau - 2 * eps - 2 * (N * eps')) <= N * c) by (apply Rmult_le_compat_l; lra).
        assert (A0 : 0 <= N * eps) by (apply Rmult_le_pos; lra). assert (A3 : 0 <= N * (N * eps')) by (apply Rmult_le_pos; lra).
        assert (A4 : 0 <= N * tau) by (apply Rmult_le_pos; lra).
        unfold over in L. apply Rabs_le. split; [lra|].
        (* the lower bound of the count, once more without the overshoot *)
        destruct (Rle_dec c 1) as [Hc1|Hc1].
        * destruct (count_bounds (i - 1) 0 ltac:(lia) ltac:(lra) ltac:(fold c; lra)) as (L0 & _). fold c in L0. fold N in L0. lra.
        * assert (Hx : 0 <= x) by apply (wr_nth w Pw).
          destruct (count_bounds (i - 1) (c - 1) ltac:(lia) ltac:(lra) ltac:(fold c; lra)) as (L0 & _). fold c in L0. fold N in L0.
          assert (0 <= N * x) by (apply Rmult_le_pos; lra). lra.
    - destruct (count_bounds i over ltac:(lia) Ho (Hov i Hi)) as (L & U).
      set (x := nth i wr 0) in *. set (N := INR n) in *.
      assert (A0 : 0 <= N * eps) by (apply Rmult_le_pos; lra). assert (A3 : 0 <= N * (N * eps')) by (apply Rmult_le_pos; lra).
      assert (A4 : 0 <= N * tau) by (apply Rmult_le_pos; lra).
      destruct Hprev as [(Ei & E)|(Ei & E)].
      + rewrite E. assert (P : Rabs (part i - x) <= 4 * eps).
        { unfold x. rewrite Ei. apply (partial_first Hprec w Pw Hsum Hn'). exact Hn0. }
        apply Rabs_le_between in P. set (c := part i) in *.
        assert (A1 : N * c <= N * (x + 4 * eps)) by (apply Rmult_le_compat_l; lra).
        assert (A2 : N * (x - 4 * eps) <= N * c) by (apply Rmult_le_compat_l; lra).
        unfold over in L. apply Rabs_le. lra.
      + rewrite E. pose proof (partial_step Hprec w Pw Hsum Hn' i Ei Hi) as P. fold x in P. apply Rabs_le_between in P.
        destruct (count_bounds (i - 1) over ltac:(lia) Ho (Hov (i - 1)%nat ltac:(lia))) as (L' & U').
        set (c := part i) in *. set (c' := part (i - 1)) in *.
        assert (A1 : N * (c - c') <= N * (x + 6 * eps)) by (apply Rmult_le_compat_l; lra).
        assert (A2 : N * (x - 6 * eps) <= N * (c - c')) by (apply Rmult_le_compat_l; lra).
        unfold over in L, L'. fold N in L', U'. apply Rabs_le. lra.
  Qed.

  (** A particle of weight zero. *)
  Lemma zero_float i : (i < n - 1)%nat -> nth i wr 0 = 0 -> (0 < i)%nat \/ eps <= B2R u ->
    ~ In i (map sel (seq 0 n)).
  Proof.
    intros Hi Hz Hc Hin. pose proof w_pos as Hn0. apply in_map_iff in Hin. destruct Hin as (k & Ek & Hk). apply in_seq in Hk.
    pose proof (proj1 (sel_le k i ltac:(lia) ltac:(lia)) ltac:(lia)) as H1. destruct H1 as [H1|H1]; [lia|].
    destruct (Nat.eq_dec i 0) as [E0|N0].
    - destruct Hc as [Hc|Hc]; [lia|]. rewrite E0 in *.
      rewrite (partial_zero_first w Hn0 Hz) in H1.
      pose proof (grid_value_pos n u Hn0 Hbig Hwide how k Hc ltac:(lia)). lra.
    - rewrite (partial_zero w Pw Hsum Hn' i ltac:(lia) ltac:(lia) Hz) in H1.
      assert (H2 : (sel k <= i - 1)%nat); [|lia]. apply sel_le; [lia|lia|]. now right.
  Qed.
End Copies.
