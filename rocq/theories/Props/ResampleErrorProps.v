(** Property C95 (pyfilter/resampling.py): how far the mean over resampled particles is from the weighted mean. *)
From Coq Require Import Reals List Bool Arith ZArith Lra Lia Psatz.
From Coquelicot Require Import Coquelicot.
From Verif.Model Require Import Base Xf Tensor Weights Resampling.
From Verif.Spec Require Import WeightsSpec ResamplingSpec ParticleSpec UnbiasedSpec ConvergeSpec.
From Verif.Proofs Require Import WeightsProofs MomentsProofs ResamplingProofs ParticleProofs UnbiasedProofs UnbiasedFilter ConvergeProofs.
From Verif.Props Require Import ResamplingProps ResampleMeanProps.
Import ListNotations.
Open Scope R_scope.

(** The mean of [F] over the selected particles minus its weighted mean. *)
Definition error_of (W : list R) (F : nat -> R) (sel : list nat) : R :=
  / INR (length W) * Rsum (map F sel) - sum_below (length W) (fun i => nth i W 0 * F i).
(** The variance of [F] under the weights. *)
Definition variance (W : list R) (F : nat -> R) : R :=
  sum_below (length W) (fun i => nth i W 0 * square (F i)) - square (sum_below (length W) (fun i => nth i W 0 * F i)).
(** The weights [p] as probabilities. *)
Definition share (p : list R) : list R := map (fun x => x / Rsum p) p.

(** torch.multinomial under the law [L]: [m <= n] draws from [n] non-negative numbers are entries, and independent, so that
    the variance of a sum over the draws is [m] times that of one draw. *)
Definition independent_multinomial {A} (L : law A) (n : nat) (draw : A -> list xf -> nat -> res (list nat)) : Prop :=
  forall p m F, (forall x, In x p -> 0 <= x) -> 0 < Rsum p -> length p = n -> (m <= n)%nat ->
    (forall a, supp L a -> exists l, draw a (map Fin p) m = Ok l /\ length l = m /\ forall i, In i l -> (i < n)%nat) /\
    averages L (fun a => square (Rsum (map F (row (draw a (map Fin p) m))) - INR m * sum_below n (fun i => nth i (share p) 0 * F i)))
      (INR m * variance (share p) F).

Lemma share_prob p : (forall x, In x p -> 0 <= x) -> 0 < Rsum p -> prob_vec (share p).
Proof.
  intros Hp Hs. split.
  - intros x Hx. apply in_map_iff in Hx. destruct Hx as (y & <- & Hy). apply Rmult_le_pos; [now apply Hp|]. left. now apply Rinv_0_lt_compat.
  - unfold share. rewrite (map_ext _ (fun x => / Rsum p * x)) by (intros; unfold Rdiv; ring). rewrite (Rsum_map_scale (fun x => x)), map_id. field. lra.
Qed.
Lemma share_self W : prob_vec W -> share W = W.
Proof. intros [_ H]. unfold share. rewrite H, (map_ext _ (fun x => x)) by (intros; field). apply map_id. Qed.
Lemma length_share p : length (share p) = length p.
Proof. apply map_length. Qed.

(** Weighted means are between the bounds, the variance is not negative and at most the square of a bound. *)
Lemma sumto_pos n f : (forall i, (i < n)%nat -> 0 <= f i) -> 0 <= sumto n f.
Proof. intros H. rewrite <- (sumto_0 n (fun _ => 0)) by reflexivity. now apply sumto_le. Qed.
Lemma weights_sum W : prob_vec W -> sumto (length W) (fun i => nth i W 0) = 1.
Proof. intros H. rewrite <- Rsum_nth. apply H. Qed.
Lemma variance_bound W F B : prob_vec W -> (forall i, (i < length W)%nat -> Rabs (F i) <= B) -> variance W F <= square B.
Proof.
  intros HW HB. unfold variance. change sum_below with sumto.
  assert (sumto (length W) (fun i => nth i W 0 * square (F i)) <= sumto (length W) (fun i => square B * nth i W 0)).
  { apply sumto_le. intros i Hi. rewrite Rmult_comm. apply Rmult_le_compat_r; [apply HW, nth_In; exact Hi|]. apply square_abs. now apply HB. }
  rewrite sumto_scal, weights_sum in H by exact HW. pose proof (square_nonneg (sumto (length W) (fun i => nth i W 0 * F i))). lra.
Qed.

(** * Multinomial and residual resampling *)

(** Multinomial: the mean square error is exactly the variance over the number of particles. *)
Theorem C95_multinomial : forall lowest A (L : law A) (draw : A -> list xf -> nat -> res (list nat)) (W : list R) (F : nat -> R), law_ok L ->
  independent_multinomial L (length W) draw -> prob_vec W ->
  averages L (fun a => square (error_of W F (selected1 (multinomial lowest (fun _ => draw a) (W1 (map Fin W)) true)))) (variance W F / INR (length W)).
Proof.
  intros lowest A L draw W F HL Hd HW. set (n := length W).
  assert (Hn : 0 < INR n).
  { apply lt_0_INR. pose proof (prob_vec_nonempty W HW) as H. unfold n. destruct W; [congruence|simpl; lia]. }
  destruct (Hd W n F (proj1 HW) ltac:(rewrite (proj2 HW); lra) eq_refl ltac:(lia)) as [Hok Hav]. rewrite share_self in Hav by exact HW.
  pose proof (averages_scal L HL (square (/ INR n)) _ _ Hav) as H.
  refine (eq_rect _ (averages L _) (averages_ext L HL _ _ _ _ H) _ _).
  - intros a Ha. destruct (Hok a Ha) as (l & El & _). unfold multinomial, wrapper, multinomial_rows. cbn [bind]. rewrite map_length. fold n. rewrite El. cbn [bind row nth selected1].
    unfold error_of. fold n. set (s := sum_below n _). set (r := Rsum _). unfold square. field. lra.
  - unfold square. fold n. field. lra.
Qed.
Print Assumptions C95_multinomial.

(** Residual: the mean square error of a quantity bounded by [B] is at most [B ^ 2 / n]. *)
Theorem C95_residual : forall lowest A (L : law A) draw (W : list R) F B, law_ok L -> independent_multinomial L (length W) draw -> prob_vec W ->
  (forall i, (i < length W)%nat -> Rabs (F i) <= B) ->
  exists v, averages L (fun a => square (error_of W F (selected1 (residual lowest (draw a) (W1 (map Fin W)) true)))) v /\ v <= square B / INR (length W).
Proof.
  intros lowest A L draw w F B HL Hd Hw HB.
  set (n := length w).
  assert (Hne : w <> []) by now apply prob_vec_nonempty.
  assert (Hn : 0 < INR n) by (apply lt_0_INR; unfold n; destruct w; [congruence|simpl; lia]).
  set (mw := map (fun x => INR n * x) w). set (fl := map Int_part mw). set (num := fold_right Z.add 0%Z fl).
  assert (Hmw : forall x, In x mw -> 0 <= x).
  { intros x Hx. apply in_map_iff in Hx. destruct Hx as (y & <- & Hy). apply Rmult_le_pos; [lra|]. now apply (proj1 Hw). }
  assert (Hfl : forall z, In z fl -> (0 <= z)%Z).
  { intros z Hz. apply in_map_iff in Hz. destruct Hz as (y & <- & Hy). apply Int_part_floor. now apply Hmw. }
  assert (Hsum : Rsum mw = INR n).
  { unfold mw. rewrite (Rsum_map_scale (fun x => x)), map_id, (proj2 Hw). lra. }
  destruct (Rsum_le_INR mw Hmw Hfl) as [B1 B2]. fold fl in B1, B2. fold num in B1, B2.
  assert (Hmwne : mw <> []) by (unfold mw; intros H; apply map_eq_nil in H; congruence).
  specialize (B2 Hmwne). rewrite Hsum in B1, B2.
  assert (Elen : length mw = n) by (unfold mw; apply map_length). rewrite Elen in B2.
  rewrite INR_IZR_INZ in B1. apply le_IZR in B1.
  assert (Hpos : (0 < num)%Z) by (apply lt_IZR; lra).
  assert (Ei : forall i, (i < n)%nat -> nth i mw 0 = INR n * nth i w 0).
  { intros i Hi. unfold mw. rewrite (nth_indep _ 0 (INR n * 0)) by now rewrite map_length. now rewrite (map_nth (fun x => INR n * x)). }
  destruct (repeat_interleave_spec (map Z.to_nat fl) 0) as (_ & L2 & L3).
  assert (Ef : forall i, (i < n)%nat -> INR (copies i (repeat_interleave 0 (map Z.to_nat fl))) = IZR (Int_part (nth i mw 0))).
  { intros i Hi. specialize (L3 i). cbn [Nat.add] in L3. rewrite L3.
    unfold fl. rewrite map_map, (nth_indep _ 0%nat (Z.to_nat (Int_part 0))) by (rewrite map_length, Elen; exact Hi).
    rewrite (map_nth (fun x => Z.to_nat (Int_part x))), INR_IZR_INZ, Z2Nat.id; [reflexivity|].
    apply Hfl, in_map, nth_In. now rewrite Elen. }
  assert (Lfl : length (map Z.to_nat fl) = n) by (unfold fl; now rewrite !map_length).
  set (fix_ := repeat_interleave 0 (map Z.to_nat fl)).
  assert (Efix : Rsum (map F fix_) = sumto n (fun i => IZR (Int_part (nth i mw 0)) * F i)).
  { rewrite (sum_copies n F fix_).
    - apply sumto_ext. intros i Hi. unfold fix_. now rewrite Ef.
    - apply Forall_forall. intros i Hi. apply L2 in Hi. lia. }
  assert (E : forall a, selected1 (residual lowest (draw a) (W1 (map Fin w)) true) =
    if (num =? Z.of_nat n)%Z then fix_
    else match draw a (map Fin (map (fun x => (x - IZR (Int_part x)) / IZR num) mw)) (n - Z.to_nat num)%nat with
         | Ok extra => fix_ ++ extra | Raise _ => [] end).
  { intros a. unfold residual, wrapper, residual_rows. cbn [bind]. rewrite finite_row_fin. unfold residual_row. fold n. fold mw. fold fl. fold num.
    replace (existsb (fun z => (z <? 0)%Z) fl) with false.
    2: { symmetry. destruct (existsb _ fl) eqn:Ee; [|reflexivity]. apply existsb_exists in Ee. destruct Ee as (z & Hz & Ez). apply Z.ltb_lt in Ez. apply Hfl in Hz. lia. }
    destruct (Z.of_nat n <? num)%Z eqn:E2; [apply Z.ltb_lt in E2; lia|].
    destruct (num =? Z.of_nat n)%Z; [reflexivity|]. destruct (num =? 0)%Z eqn:E4; [apply Z.eqb_eq in E4; lia|].
    rewrite map_map. destruct (draw a _ _); reflexivity. }
  assert (Ew : sum_below n (fun i => nth i w 0 * F i) = / INR n * sumto n (fun i => nth i mw 0 * F i)).
  { rewrite <- sumto_scal. apply (sumto_ext n). intros i Hi. rewrite Ei by exact Hi. field. lra. }
  assert (HB2 : 0 <= square B / INR n) by (apply Rmult_le_pos; [apply square_nonneg|left; now apply Rinv_0_lt_compat]).
  destruct (num =? Z.of_nat n)%Z eqn:E3.
  - apply Z.eqb_eq in E3.
    assert (Hz : forall l, (forall x, In x l -> In x mw) -> Rsum l = IZR (fold_right Z.add 0%Z (map Int_part l)) -> forall x, In x l -> x = IZR (Int_part x)).
    { induction l as [|a l IH]; intros Hl Hs x Hx; [destruct Hx|]. cbn [map fold_right] in Hs. rewrite plus_IZR in Hs. unfold Rsum in Hs. cbn [fold_right] in Hs.
      destruct (base_Int_part a) as [A1 _]. destruct (Rsum_le_INR l) as [A2 _].
      - intros y Hy. apply Hmw, Hl. now right.
      - intros z Hz. apply in_map_iff in Hz. destruct Hz as (y & <- & Hy). apply Hfl, in_map, Hl. now right.
      - unfold Rsum in A2. destruct Hx as [<-|Hx]; [lra|]. apply IH; [intros; apply Hl; now right|unfold Rsum; lra|exact Hx]. }
    exists 0. split; [|exact HB2]. apply (averages_ext L HL (fun _ => 0)); [|now apply averages_const]. intros a _. rewrite E.
    unfold error_of. fold n. rewrite Efix, Ew.
    rewrite (sumto_ext n (fun i => IZR (Int_part (nth i mw 0)) * F i) (fun i => nth i mw 0 * F i)).
    + unfold square. ring.
    + intros i Hi. rewrite <- (Hz mw); [reflexivity|auto| |apply nth_In; now rewrite Elen]. fold fl. fold num. rewrite Hsum, E3, INR_IZR_INZ. reflexivity.
  - apply Z.eqb_neq in E3.
    set (p := map (fun x => (x - IZR (Int_part x)) / IZR num) mw) in *. set (m := (n - Z.to_nat num)%nat) in *.
    assert (Hnp : 0 < IZR num) by (apply IZR_lt; lia).
    assert (Hm : INR m = INR n - IZR num).
    { unfold m. rewrite minus_INR by lia. now rewrite (INR_IZR_INZ (Z.to_nat num)), Z2Nat.id by lia. }
    assert (Hlt : IZR num < INR n) by (rewrite INR_IZR_INZ; apply IZR_lt; lia).
    assert (Sp : Rsum p = (INR n - IZR num) / IZR num) by (unfold p; rewrite fraction_sum, Hsum; reflexivity).
    assert (Sp0 : 0 < Rsum p) by (rewrite Sp; apply Rmult_lt_0_compat; [lra|now apply Rinv_0_lt_compat]).
    assert (Lp : length p = n) by (unfold p; now rewrite map_length).
    assert (Pp : forall x, In x p -> 0 <= x).
    { intros x Hx. apply in_map_iff in Hx. destruct Hx as (y & <- & Hy). destruct (base_Int_part y). apply Rmult_le_pos; [lra|]. left. now apply Rinv_0_lt_compat. }
    assert (Ep : forall i, (i < n)%nat -> INR m * nth i (share p) 0 = nth i mw 0 - IZR (Int_part (nth i mw 0))).
    { intros i Hi. unfold share. rewrite (nth_map' (fun x => x / Rsum p) p i 0 0) by now rewrite Lp. unfold p at 1. rewrite (nth_map' _ mw i 0 0) by now rewrite Elen.
      rewrite Sp, Hm. field. lra. }
    destruct (Hd p m F Pp Sp0 Lp ltac:(unfold m; lia)) as [Hok Hav].
    pose proof (averages_scal L HL (square (/ INR n)) _ _ Hav) as H.
    exists (square (/ INR n) * (INR m * variance (share p) F)). split.
    + refine (averages_ext L HL _ _ _ _ H). intros a Ha. rewrite E. destruct (Hok a Ha) as (l & El & _). rewrite El. cbn [row].
      unfold error_of. fold n. rewrite map_app, Rsum_app, Efix, Ew.
      change sum_below with sumto. rewrite <- (sumto_scal n (INR m)).
      rewrite (sumto_ext n (fun i => nth i mw 0 * F i) (fun i => IZR (Int_part (nth i mw 0)) * F i + INR m * (nth i (share p) 0 * F i))).
      * rewrite sumto_plus. unfold square. ring.
      * intros i Hi. rewrite <- Rmult_assoc, Ep by exact Hi. ring.
    + pose proof (share_prob p Pp Sp0) as Hq.
      assert (Hv : variance (share p) F <= square B) by (apply variance_bound; [exact Hq|intros i Hi; apply HB; fold n; rewrite <- Lp, <- length_share; exact Hi]).
      assert (Hmn : INR m <= INR n) by (apply le_INR; unfold m; lia).
      replace (square B / INR n) with (square (/ INR n) * (INR n * square B)) by (unfold square; field; lra).
      apply Rmult_le_compat_l; [apply square_nonneg|].
      apply Rle_trans with (INR m * square B); [apply Rmult_le_compat_l; [apply pos_INR|exact Hv]|]. apply Rmult_le_compat_r; [apply square_nonneg|exact Hmn].
Qed.
Print Assumptions C95_residual.

(** torch.multinomial by inverting the distribution function at independent uniform numbers. *)
Definition chosen (p : list xf) (a : R) : nat :=
  let q := map real_of p in searchsorted (set_last (Fin 1) (cumsum (map Fin (share q)))) (Fin a).
Definition inverted (u : nat -> R) (p : list xf) (m : nat) : res (list nat) := Ok (map (fun i => chosen p (u i)) (seq 0 m)).
Lemma chosen_lt p a : p <> [] -> a <= 1 -> (chosen p a < length p)%nat.
Proof.
  intros Hp Ha. unfold chosen. set (w := map Fin (share (map real_of p))).
  assert (Hw : w <> []) by (unfold w, share; destruct p; [congruence|discriminate]).
  assert (Lw : length w = length p) by (unfold w; now rewrite map_length, length_share, map_length).
  set (cum := set_last (Fin 1) (cumsum w)).
  assert (Hlen : length cum = length w) by (unfold cum, cumsum; now rewrite length_set_last, length_cumsum).
  destruct (searchsorted_spec cum (Fin a)) as (H1 & _ & H3).
  destruct (Nat.eq_dec (searchsorted cum (Fin a)) (length cum)) as [E|E]; [|lia].
  exfalso. rewrite E in H3. destruct H3 as [H3|H3].
  - rewrite Hlen in H3. destruct w; [congruence|discriminate].
  - assert (El : nth (length cum - 1) cum NaN = Fin 1).
    { rewrite Hlen. unfold cum. rewrite <- (length_cumsum (Fin 0) w). apply nth_set_last_last. unfold cumsum. destruct w; [congruence|discriminate]. }
    rewrite El in H3. unfold xle in H3. simpl in H3. apply orb_false_iff in H3. destruct H3 as [H3 H4].
    destruct (Rlt_dec a 1); [discriminate|]. destruct (Req_EM_T a 1); [discriminate|]. lra.
Qed.
Lemma chosen_mean p F : (forall x, In x p -> 0 <= x) -> 0 < Rsum p -> averages uniform (fun a => F (chosen (map Fin p) a)) (sumto (length p) (fun i => nth i (share p) 0 * F i)).
Proof.
  intros Hp Hs.
  assert (Hne : map Fin p <> []) by (destruct p; [unfold Rsum in Hs; cbn in Hs; lra|discriminate]).
  apply (averages_ext uniform uniform_ok (fun a => sumto (length p) (fun i => INR (copies i (row (lumped a (map Fin p) 1))) * F i))).
  - intros a Ha. cbn [uniform supp] in Ha. change (row (lumped a (map Fin p) 1)) with [chosen (map Fin p) a].
    rewrite <- (sum_copies (length p) F [chosen (map Fin p) a]).
    + unfold Rsum. cbn [map fold_right]. ring.
    + constructor; [|constructor]. rewrite <- (map_length Fin p). apply chosen_lt; [exact Hne|lra].
  - apply averages_sum; [exact uniform_ok|]. intros i Hi. apply in_seq in Hi.
    destruct (lumped_fair (length p) p 1%nat i Hp Hs eq_refl ltac:(lia) ltac:(lia)) as [_ H].
    pose proof (averages_scal uniform uniform_ok (F i) _ _ H) as H'.
    refine (eq_rect _ (averages uniform _) (averages_ext uniform uniform_ok _ _ _ _ H') _ _); [intros; ring|].
    unfold share. rewrite (nth_map' (fun x => x / Rsum p) p i 0 0) by lia. cbn [INR]. ring.
Qed.
Lemma inverted_independent n b : (n <= b)%nat -> independent_multinomial (independent uniform b (fun _ => / 2)) n inverted.
Proof.
  intros Hb p m F Hp Hs Lp Hm. assert (Hbase : forall k : nat, supp uniform (/ 2)) by (intros; cbn; lra).
  assert (Hne : map Fin p <> []) by (destruct p; [unfold Rsum in Hs; cbn in Hs; lra|discriminate]).
  split.
  - intros u Hu. eexists. split; [reflexivity|]. split; [now rewrite map_length, seq_length|]. intros i Hi. apply in_map_iff in Hi. destruct Hi as (k & <- & _).
    rewrite <- Lp, <- (map_length Fin p). apply chosen_lt; [exact Hne|]. pose proof (proj1 (supp_independent _ _ _ _) Hu k) as H. cbn in H. lra.
  - pose proof (independent_variance uniform uniform_ok (fun _ => / 2) Hbase b m (fun _ a => F (chosen (map Fin p) a))
      (fun _ => sumto n (fun i => nth i (share p) 0 * F i)) (fun _ => sumto n (fun i => nth i (share p) 0 * square (F i))) (fun _ => 1) ltac:(lia)) as V.
    assert (Ec : forall c, sumto m (fun _ => c) = INR m * c).
    { clear. intros c. induction m as [|m IH]; [unfold sumto, Rsum; cbn; ring|]. rewrite sumto_S, IH, S_INR. ring. }
    refine (eq_rect _ (averages _ _) (averages_ext _ (independent_ok uniform uniform_ok _ Hbase b) _ _ _ _ (V _ _)) _ _).
    + intros u Hu. cbn beta. rewrite Ec. unfold inverted. cbn [row]. rewrite map_map. rewrite Rmult_1_l.
      rewrite (sumto_ext m (fun i => 1 * F (chosen (map Fin p) (u i))) (fun i => F (chosen (map Fin p) (u i)))) by (intros; ring). reflexivity.
    + intros i Hi. rewrite <- Lp. now apply chosen_mean.
    + intros i Hi. rewrite <- Lp. now apply (chosen_mean p (fun i => square (F i))).
    + rewrite Ec. unfold variance. rewrite length_share, Lp. change sum_below with sumto. unfold square at 1. ring.
Qed.

(** * Systematic resampling *)
(** The variation of a quantity from one particle to the next. *)
Definition variation (n : nat) (F : nat -> R) : R := sum_below (n - 1) (fun i => Rabs (F (S i) - F i)).

Lemma lt_S_le a b : INR a < INR b + 1 -> (a <= b)%nat.
Proof. intros H. rewrite <- S_INR in H. apply INR_lt in H. lia. Qed.
(** Counting the particles selected below [i]. *)
Definition below (W : list R) (c : R) (i : nat) : R :=
  match i with O => 0 | S i => INR (upto (INR (length W) * psum W (S i) - c) (length W)) end.
Lemma below_step W c i : prob_vec W -> 0 <= c <= 1 -> (i < length W)%nat ->
  INR (copies i (map (pick W (fun _ => c)) (seq 0 (length W)))) = below W c (S i) - below W c i.
Proof.
  intros HW Hc Hi. pose proof (copies_split i (map (pick W (fun _ => c)) (seq 0 (length W)))) as E.
  rewrite (filter_pick_upto W c i HW Hc Hi) in E. cbn [below]. rewrite <- E, plus_INR. destruct i as [|i]; cbn [Nat.eqb below] in *.
  - assert (Z : forall l : list nat, filter (fun _ => false) l = []) by (induction l; auto). rewrite Z. cbn. ring.
  - replace (S i - 1)%nat with i by lia. rewrite (filter_pick_upto W c i HW Hc ltac:(lia)). ring.
Qed.
Lemma below_near W c i : prob_vec W -> 0 <= c <= 1 -> (i <= length W)%nat -> Rabs (below W c i - INR (length W) * psum W i) <= 1.
Proof.
  intros HW Hc Hi. destruct i as [|i]; cbn [below]; [rewrite psum_0, Rmult_0_r, Rminus_0_r, Rabs_R0; lra|].
  pose proof (psum_range W (S i) HW) as [P1 P2]. pose proof (pos_INR (length W)) as Pn.
  set (t := INR (length W) * psum W (S i)) in *. assert (0 <= t <= INR (length W)) by (unfold t; nra).
  destruct (upto_spec (t - c) (length W)) as (U1 & U2 & U3). set (q := upto _ _) in *.
  clearbody q t. apply le_INR in U1. apply Rabs_le.
  assert (INR q <= t - c + 1 \/ INR q = 0) by (destruct U2 as [->|U2]; [now right|left; lra]).
  assert (INR q = INR (length W) \/ t - c < INR q) by (destruct U3 as [->|U3]; [now left|now right]). lra.
Qed.
Lemma abel D F k : D O = 0 -> sumto (S k) (fun i => (D (S i) - D i) * F i) = D (S k) * F k - sumto k (fun i => D (S i) * (F (S i) - F i)).
Proof.
  intros H0. induction k as [|k IH].
  - rewrite sumto_S. unfold sumto, Rsum. cbn. rewrite H0. ring.
  - rewrite sumto_S, IH, (sumto_S k). ring.
Qed.
Lemma sumto_abs n f : Rabs (sumto n f) <= sumto n (fun i => Rabs (f i)).
Proof.
  induction n as [|n IH]; [unfold sumto, Rsum; cbn; rewrite Rabs_R0; lra|]. rewrite !sumto_S. pose proof (Rabs_triang (sumto n f) (f n)). lra.
Qed.

(** The error is at most the variation over the number of particles, whatever the draw. *)
Theorem C95_systematic_partial : forall lowest (W : list R) F u, prob_vec W -> 0 <= u < 1 ->
  Rabs (error_of W F (selected1 (systematic lowest (fun _ => u) (W1 (map Fin W)) true None))) <= variation (length W) F / INR (length W).
Proof.
  intros lowest W F u HW Hu. rewrite systematic_1d, systematic_row_fin by now apply prob_vec_nonempty. cbn [bind selected1]. set (n := length W).
  pose proof (prob_vec_nonempty W HW) as Hne. assert (Hn : (0 < n)%nat) by (unfold n; destruct W; [congruence|simpl; lia]).
  pose proof (lt_0_INR n Hn) as Hn0.
  set (sel := map _ _). set (D i := below W u i - INR n * psum W i).
  assert (E : error_of W F sel = / INR n * sumto n (fun i => (D (S i) - D i) * F i)).
  { unfold error_of. fold n. rewrite (sum_copies n F sel).
    - rewrite <- (sumto_scal n (/ INR n)), <- (sumto_scal n (/ INR n) (fun i => (D (S i) - D i) * F i)). change (sum_below n) with (sumto n). rewrite sumto_minus. apply sumto_ext. intros i Hi.
      unfold sel. change (seq 0 n) with (seq 0 (length W)). rewrite (below_step W u i HW) by (lra || exact Hi). unfold D. rewrite psum_S by exact Hi. field. lra.
    - apply Forall_forall. intros i Hi. unfold sel in Hi. apply in_map_iff in Hi. destruct Hi as (k & <- & Hk). apply in_seq in Hk. apply pick_lt; [exact HW|intros; lra|lia]. }
  rewrite E. unfold variation. change sum_below with sumto. replace n with (S (n - 1)) at 2 by lia. rewrite abel.
  - assert (Dn : D (S (n - 1)) = 0).
    { replace (S (n - 1)) with n by lia. unfold D. replace n with (S (n - 1)) at 1 by lia. cbn [below]. replace (S (n - 1)) with (length W) by (fold n; lia).
      fold n. rewrite psum_all, (proj2 HW). destruct (upto_spec (INR n * 1 - u) n) as (U1 & U2 & [U3|U3]); [rewrite U3; ring|].
      assert (INR n - 1 < INR (upto (INR n * 1 - u) n)) by lra. apply le_INR in U1.
      assert (Hle : (n <= upto (INR n * 1 - u) n)%nat) by (apply lt_S_le; lra). apply le_INR in Hle. lra. }
    rewrite Dn, Rmult_0_l, Rminus_0_l, Rabs_mult, Rabs_Ropp, Rabs_right by (left; now apply Rinv_0_lt_compat). unfold Rdiv. rewrite Rmult_comm.
    apply Rmult_le_compat_r; [left; now apply Rinv_0_lt_compat|]. eapply Rle_trans; [apply sumto_abs|]. apply sumto_le. intros i Hi.
    rewrite Rabs_mult. rewrite <- (Rmult_1_l (Rabs (F (S i) - F i))) at 2. apply Rmult_le_compat_r; [apply Rabs_pos|]. apply below_near; [exact HW|lra|fold n; lia].
  - unfold D. cbn [below]. rewrite psum_0. ring.
Qed.
Print Assumptions C95_systematic_partial.

(** Weights three quarters and one quarter of the mean in turn: every draw selects the heavy ones twice, or every one once. *)
Definition uneven (m : nat) : list R := map (fun i => if Nat.even i then 3 / (4 * INR m) else 1 / (4 * INR m)) (seq 0 (2 * m)).
Definition heavy (i : nat) : R := if Nat.even i then 1 else 0.
Lemma length_uneven m : length (uneven m) = (2 * m)%nat.
Proof. unfold uneven. now rewrite map_length, seq_length. Qed.
Lemma nth_uneven m i : (i < 2 * m)%nat -> nth i (uneven m) 0 = if Nat.even i then 3 / (4 * INR m) else 1 / (4 * INR m).
Proof. intros Hi. unfold uneven. rewrite (nth_map' _ _ i 0 0%nat) by now rewrite seq_length. now rewrite seq_nth by exact Hi. Qed.
Lemma psum_uneven m k : (0 < m)%nat -> (k <= 2 * m)%nat -> INR (2 * m) * psum (uneven m) k = INR k + if Nat.even k then 0 else / 2.
Proof.
  intros Hm. pose proof (lt_0_INR m Hm) as H0. induction k as [|k IH]; intros Hk; [rewrite psum_0; cbn; ring|].
  rewrite psum_S by (rewrite length_uneven; lia). rewrite nth_uneven, Rmult_plus_distr_l, IH by lia. rewrite S_INR, Nat.even_succ, <- Nat.negb_even, mult_INR.
  change (INR 2) with 2. destruct (Nat.even k); cbn [negb]; field; lra.
Qed.
Lemma uneven_prob m : (0 < m)%nat -> prob_vec (uneven m).
Proof.
  intros Hm. pose proof (lt_0_INR m Hm) as H0. split.
  - intros x Hx. unfold uneven in Hx. apply in_map_iff in Hx. destruct Hx as (i & <- & _). assert (0 < / (4 * INR m)) by (apply Rinv_0_lt_compat; lra). destruct (Nat.even i); unfold Rdiv; nra.
  - rewrite <- psum_all, length_uneven. pose proof (psum_uneven m (2 * m) Hm (le_n _)) as H. rewrite Nat.even_mul in H. cbn [Nat.even orb] in H.
    assert (0 < INR (2 * m)) by (apply lt_0_INR; lia). nra.
Qed.
Lemma upto_exact t n c : (c <= n)%nat -> INR c - 1 <= t -> t < INR c -> upto t n = c.
Proof.
  intros H1 H2 H3. destruct (upto_spec t n) as (U1 & U2 & U3). apply Nat.le_antisymm.
  - destruct U2 as [->|U2]; [lia|]. apply lt_S_le. lra.
  - destruct U3 as [->|U3]; [exact H1|]. apply lt_S_le. lra.
Qed.
Lemma uneven_error lowest m u : (0 < m)%nat -> 0 < u < 1 ->
  Rabs (error_of (uneven m) heavy (selected1 (systematic lowest (fun _ => u) (W1 (map Fin (uneven m))) true None))) = / 4.
Proof.
  intros Hm Hu. pose proof (uneven_prob m Hm) as HW. rewrite systematic_1d, systematic_row_fin by now apply prob_vec_nonempty. cbn [bind selected1].
  set (sel := map _ _). pose proof (lt_0_INR m Hm) as H0.
  set (v := if Rle_dec u (/ 2) then 2 else 1).
  assert (E : forall k, (k < m)%nat -> INR (copies (2 * k) sel) = v).
  { intros k Hk. unfold sel. rewrite (below_step (uneven m) u (2 * k) HW) by (rewrite ?length_uneven; lra || lia). cbn [below]. rewrite length_uneven.
    rewrite psum_uneven by lia. rewrite Nat.even_succ, <- Nat.negb_even, Nat.even_mul. cbn [Nat.even orb negb].
    assert (A : below (uneven m) u (2 * k) = INR (2 * k)).
    { destruct k as [|k]; [reflexivity|]. replace (2 * S k)%nat with (S (2 * k + 1)) by lia. cbn [below]. rewrite length_uneven.
      rewrite psum_uneven by lia. replace (S (2 * k + 1)) with (2 * S k)%nat by lia. rewrite Nat.even_mul. cbn [Nat.even orb].
      rewrite (upto_exact _ _ (2 * S k)); [reflexivity|lia|lra|lra]. }
    rewrite A, S_INR. unfold v. destruct (Rle_dec u (/ 2)).
    - rewrite (upto_exact _ _ (2 * k + 2)); [|lia| |]; rewrite plus_INR; change (INR 2) with 2; lra.
    - rewrite (upto_exact _ _ (2 * k + 1)); [|lia| |]; rewrite plus_INR; change (INR 1) with 1; lra. }
  assert (S2 : forall (c : nat -> R) h q, (forall k, (k < q)%nat -> c (2 * k)%nat = h) -> sumto (2 * q) (fun i => c i * heavy i) = INR q * h).
  { intros c h q. induction q as [|q IH]; intros Hc; [unfold sumto, Rsum; cbn; ring|]. replace (2 * S q)%nat with (S (S (2 * q))) by lia.
    rewrite !sumto_S, IH, Hc, S_INR by (intros; try apply Hc; lia). unfold heavy. rewrite Nat.even_succ, <- Nat.negb_even, Nat.even_mul. cbn [Nat.even orb negb]. ring. }
  unfold error_of. rewrite length_uneven, (sum_copies (2 * m) heavy sel).
  - change (sum_below (2 * m)) with (sumto (2 * m)). rewrite (S2 (fun i => INR (copies i sel)) v m E).
    rewrite (S2 (fun i => nth i (uneven m) 0) (3 / (4 * INR m)) m).
    + rewrite mult_INR. change (INR 2) with 2. unfold v. destruct (Rle_dec u (/ 2)).
      * replace (/ (2 * INR m) * (INR m * 2) - INR m * (3 / (4 * INR m))) with (/ 4) by (field; lra). apply Rabs_right. lra.
      * replace (/ (2 * INR m) * (INR m * 1) - INR m * (3 / (4 * INR m))) with (- / 4) by (field; lra). rewrite Rabs_Ropp. apply Rabs_right. lra.
    + intros k Hk. rewrite nth_uneven by lia. now rewrite Nat.even_mul.
  - apply Forall_forall. intros i Hi. unfold sel in Hi. apply in_map_iff in Hi. destruct Hi as (k & <- & Hk). rewrite <- (length_uneven m). apply in_seq in Hk. apply pick_lt; [exact HW|intros; lra|lia].
Qed.

(** Expected: as with the other two functions, the mean square error of a quantity bounded by one vanishes with the number of
    particles.  With alternating weights it is one sixteenth for every draw and every number of particles. *)
Definition error_vanishes (select : R -> list xf -> list nat) : Prop :=
  forall eps, 0 < eps -> exists n0, forall (W : list R) (F : nat -> R), prob_vec W -> (n0 <= length W)%nat -> (forall i, Rabs (F i) <= 1) ->
    at_most uniform (fun u => square (error_of W F (select u (map Fin W)))) eps.
Theorem C95_systematic_refuted : forall lowest,
  (forall m u, (0 < m)%nat -> 0 < u < 1 -> Rabs (error_of (uneven m) heavy (selected1 (systematic lowest (fun _ => u) (W1 (map Fin (uneven m))) true None))) = / 4) /\
  ~ error_vanishes (fun u w => selected1 (systematic lowest (fun _ => u) (W1 w) true None)).
Proof.
  intros lowest. split; [intros m u; apply uneven_error|]. intros H. destruct (H (/ 32) ltac:(lra)) as (n0 & Hn0).
  destruct (Hn0 (uneven (S n0)) heavy (uneven_prob (S n0) ltac:(lia)) ltac:(rewrite length_uneven; lia)) as (g & m & Hg & Hav & Hm).
  { intros i. unfold heavy. destruct (Nat.even i); rewrite ?Rabs_R1, ?Rabs_R0; lra. }
  assert (B : / 16 <= m); [|lra].
  apply (averages_le uniform uniform_ok uniform_pos (fun _ => / 16) g); [apply averages_const; exact uniform_ok|exact Hav|].
  intros u Hu. cbn [uniform supp] in Hu. eapply Rle_trans; [|apply Hg; exact Hu].
  pose proof (uneven_error lowest (S n0) u ltac:(lia) ltac:(lra)) as E. set (e := error_of _ _ _) in *.
  unfold square. rewrite <- (Rabs_right (e * e)) by (apply Rle_ge, square_nonneg). rewrite Rabs_mult, E. lra.
Qed.
Print Assumptions C95_systematic_refuted.

(** * Batches *)
(** Multinomial resampling treats the filters of a batch separately. *)
Theorem C95_multinomial_columnwise : forall lowest (draw : nat -> list xf -> nat -> res (list nat)) (m : mat xf) normalized,
  (0 < m_rows m)%nat -> (forall b p, length p = m_rows m -> exists l, draw b p (m_rows m) = Ok l /\ length l = m_rows m) ->
  exists out, multinomial lowest draw (W2 m) normalized = Ok (I2 out) /\ m_rows out = m_rows m /\ m_cols out = m_cols m /\
    forall b, (b < m_cols m)%nat -> multinomial lowest (fun _ => draw b) (W1 (col m b)) normalized = Ok (I1 (col out b)).
Proof.
  intros lowest draw m normalized Hn Hd.
  assert (Hlen : forall (m : mat xf) j, length (col m j) = m_rows m) by (intros; unfold col; now rewrite map_length, seq_length).
  assert (G : forall m', m_rows m' = m_rows m -> exists out, multinomial lowest draw (W2 m') true = Ok (I2 out) /\
    m_rows out = m_rows m' /\ m_cols out = m_cols m' /\
    forall b, (b < m_cols m')%nat -> multinomial lowest (fun _ => draw b) (W1 (col m' b)) true = Ok (I1 (col out b))).
  { intros m' Em. set (g bw := match draw (fst bw) (snd bw) (length (snd bw)) with Ok l => l | Raise _ => [] end).
    assert (Ecomb : forall k s, combine (seq s k) (map (col m') (seq s k)) = map (fun b => (b, col m' b)) (seq s k)).
    { induction k as [|k IH]; intros s; [reflexivity|]. cbn [seq map combine]. now rewrite IH. }
    assert (Hg : forall b, draw b (col m' b) (length (col m' b)) = Ok (g (b, col m' b)) /\ length (g (b, col m' b)) = m_rows m').
    { intros b. unfold g. cbn [fst snd]. rewrite Hlen, Em. destruct (Hd b (col m' b)) as (l & E & Hl); [now rewrite Hlen|]. rewrite E. now split. }
    exists (moveaxis (of_rows 0%nat (m_rows m') (map (fun b => g (b, col m' b)) (seq 0 (m_cols m'))))).
    unfold multinomial, wrapper, multinomial_rows. cbn [bind]. rewrite map_length, seq_length, Ecomb.
    rewrite (traverse_ok _ g).
    - cbn [bind]. rewrite map_map. split; [reflexivity|]. split; [reflexivity|]. split; [simpl; now rewrite map_length, seq_length|].
      intros b Hb. rewrite (proj1 (Hg b)). cbn [bind nth]. do 2 f_equal. rewrite col_moveaxis_of_rows.
      + rewrite (nth_indep _ [] (g (0%nat, col m' 0))) by now rewrite map_length, seq_length. rewrite (map_nth (fun b => g (b, col m' b))), seq_nth by exact Hb. reflexivity.
      + intros r Hr. apply in_map_iff in Hr. destruct Hr as (b' & <- & _). apply Hg.
      + now rewrite map_length, seq_length.
    - intros bw Hbw. apply in_map_iff in Hbw. destruct Hbw as (b & <- & _). apply Hg. }
  destruct normalized; [now apply G|].
  set (f := fun j => let! (p, _) := normalize lowest (col m j) in Ok p).
  set (g := fun j => match f j with Ok p => p | Raise _ => [] end).
  assert (Hne : forall j, col m j <> []) by (intros j E; specialize (Hlen m j); rewrite E in Hlen; simpl in Hlen; lia).
  assert (Hf : forall j, exists o, f j = Ok o /\ length o = m_rows m /\ exists a, normalize lowest (col m j) = Ok (o, a)).
  { intros j. unfold f. destruct (normalize_shape lowest (col m j) (Hne j)) as (o & a & -> & Hl & _). rewrite Hlen in Hl. simpl. eauto. }
  set (m' := moveaxis (of_rows NaN (m_rows m) (map g (seq 0 (m_cols m))))).
  assert (Em : multinomial lowest draw (W2 m) false = multinomial lowest draw (W2 m') true).
  { unfold multinomial, wrapper, normalize_arg. fold f. rewrite (traverse_ok f g); [reflexivity|].
    intros j _. unfold g. destruct (Hf j) as (o & -> & _). reflexivity. }
  rewrite Em. destruct (G m' eq_refl) as (out & E & Hrows & Hcols & H).
  assert (Hc' : m_cols m' = m_cols m) by (unfold m'; simpl; now rewrite map_length, seq_length).
  exists out. split; [exact E|]. split; [exact Hrows|]. split; [now rewrite Hcols|].
  intros b Hb. rewrite <- H by now rewrite Hc'.
  destruct (Hf b) as (o & Ef & Hl & a & En).
  assert (Ec : col m' b = o).
  { unfold m'. rewrite col_moveaxis_of_rows.
    - rewrite (nth_indep _ [] (g 0%nat)) by now rewrite map_length, seq_length. rewrite map_nth, seq_nth by assumption.
      simpl. unfold g. now rewrite Ef.
    - intros r Hrr. apply in_map_iff in Hrr. destruct Hrr as (j & <- & _). unfold g. destruct (Hf j) as (o' & -> & Hl' & _). exact Hl'.
    - now rewrite map_length, seq_length. }
  rewrite Ec. unfold multinomial, wrapper, normalize_arg. rewrite En. reflexivity.
Qed.
Print Assumptions C95_multinomial_columnwise.

(** Two particles with weights 1/4 and 3/4, the first counted: the multinomial variance is 3/16 and halved; torch's draws by
    inversion; residual resampling of the same. *)
Example C95_nonvacuous : let W := [/4; 3/4] in let F i := match i with O => 1 | _ => 0 end in let L := independent uniform 2 (fun _ => /2) in
  prob_vec W /\ law_ok L /\ independent_multinomial L 2 inverted /\
  (forall lowest, averages L (fun a => square (error_of W F (selected1 (multinomial lowest (fun _ => inverted a) (W1 (map Fin W)) true)))) (3/32)) /\
  variation 2 F = 1 /\
  (forall b p, length p = 2%nat -> exists l, inverted (fun _ => INR b / 4) p 2 = Ok l /\ length l = 2%nat).
Proof.
  intros W F L. assert (HW : prob_vec W) by (split; [intros x [<-|[<-|[]]]; lra|unfold W, Rsum; simpl; lra]).
  assert (HL : law_ok L) by (apply independent_ok; [exact uniform_ok|intros; cbn; lra]).
  split; [exact HW|]. split; [exact HL|]. split; [now apply inverted_independent|]. split; [|split].
  - intros lowest. replace (3/32) with (variance W F / INR (length W)).
    + apply C95_multinomial; [exact HL|now apply inverted_independent|exact HW].
    + unfold variance, W, F, sum_below, Rsum, square. cbn. lra.
  - unfold variation, sum_below, Rsum, F. cbn. rewrite Rminus_0_l, Rabs_Ropp, Rabs_R1. ring.
  - intros b p _. eexists. split; reflexivity.
Qed.
