(** Property C85 (pyfilter/resampling.py): the expected number of copies of a particle. *)
From Coq Require Import Reals List Bool Arith ZArith Lra Lia Psatz.
From Coquelicot Require Import Coquelicot.
From Verif.Model Require Import Base Xf Tensor Weights Resampling.
From Verif.Spec Require Import WeightsSpec ResamplingSpec ParticleSpec UnbiasedSpec.
From Verif.Proofs Require Import WeightsProofs MomentsProofs ResamplingProofs ParticleProofs UnbiasedProofs.
From Verif.Props Require Import ResamplingProps.
Import ListNotations.
Open Scope R_scope.

(** What a call with one row of weights, or filter [b] of a call with a batch, selected. *)
Definition selected1 (r : res iarg) : list nat := match r with Ok (I1 l) => l | _ => [] end.
Definition selected2 (b : nat) (r : res iarg) : list nat := match r with Ok (I2 m) => col m b | _ => [] end.
(** The draws of a batch with that of filter [b] replaced. *)
Definition redraw (rand : nat -> R) (b : nat) (u : R) : nat -> R := fun i => if (i =? b)%nat then u else rand i.
(** The average of a function of a uniform draw from [0, 1] is its Riemann integral. *)
Definition integral (f : R -> R) (a b m : R) : Prop := @is_RInt R_NormedModule f a b m.
Definition uniform_mean (f : R -> R) (m : R) : Prop := integral f 0 1 m.

(** * Lemmas *)
Lemma integral_const a b c : integral (fun _ : R => c) a b ((b - a) * c).
Proof. exact (@is_RInt_const R_NormedModule a b c). Qed.
Lemma integral_join f a b c x y : integral f a b x -> integral f b c y -> integral f a c (x + y).
Proof. exact (@is_RInt_Chasles R_NormedModule f a b c x y). Qed.
Lemma integral_plus f g a b x y : integral f a b x -> integral g a b y -> integral (fun u => f u + g u) a b (x + y).
Proof. exact (@is_RInt_plus R_NormedModule f g a b x y). Qed.
Lemma integral_minus f g a b x y : integral f a b x -> integral g a b y -> integral (fun u => f u - g u) a b (x - y).
Proof. exact (@is_RInt_minus R_NormedModule f g a b x y). Qed.
Lemma integral_ext f g a b x : a <= b -> (forall u, a < u < b -> f u = g u) -> integral f a b x -> integral g a b x.
Proof. intros L H. apply (@is_RInt_ext R_NormedModule). intros u. rewrite Rmin_left, Rmax_right by exact L. apply H. Qed.

Lemma indicator_mean c : uniform_mean (fun u => if Rle_dec u c then 1 else 0) (Rmin (Rmax c 0) 1).
Proof.
  unfold uniform_mean. set (d := Rmin (Rmax c 0) 1).
  assert (D : 0 <= d <= 1). { unfold d. split; [apply Rmin_glb; [apply Rmax_r|lra]|apply Rmin_r]. }
  replace d with ((d - 0) * 1 + (1 - d) * 0) by ring. apply (integral_join _ 0 d 1).
  - apply integral_ext with (f := fun _ => 1); [apply D| |apply integral_const]. intros x H.
    destruct (Rle_dec x c) as [|N]; [reflexivity|]. exfalso. revert H N. unfold d, Rmin, Rmax. destruct (Rle_dec c 0), (Rle_dec _ 1); lra.
  - apply integral_ext with (f := fun _ => 0); [apply D| |apply integral_const]. intros x H.
    destruct (Rle_dec x c) as [N|]; [|reflexivity]. exfalso. revert H N. unfold d, Rmin, Rmax. destruct (Rle_dec c 0), (Rle_dec _ 1); lra.
Qed.

Lemma upto_S t n : INR (upto t (S n)) = INR (upto t n) + (if Rle_dec (INR n) t then 1 else 0).
Proof.
  unfold upto. rewrite seq_S, filter_app, app_length, plus_INR. f_equal. cbn [Nat.add filter]. destruct (Rle_dec (INR n) t); reflexivity.
Qed.

(** The count of grid points below, on average: [t] restricted to [0, n]. *)
Lemma upto_mean t n : uniform_mean (fun u => INR (upto (t - u) n)) (Rmin (Rmax t 0) (INR n)).
Proof.
  unfold uniform_mean. induction n as [|n IH].
  - replace (Rmin (Rmax t 0) (INR 0)) with ((1 - 0) * 0); [apply integral_const|].
    cbn [INR]. rewrite Rmult_0_r, Rmin_right; [reflexivity|apply Rmax_r].
  - replace (Rmin (Rmax t 0) (INR (S n))) with (Rmin (Rmax t 0) (INR n) + Rmin (Rmax (t - INR n) 0) 1).
    + apply integral_ext with (f := fun u => INR (upto (t - u) n) + (if Rle_dec u (t - INR n) then 1 else 0)); [lra| |].
      * intros x _. rewrite upto_S. f_equal. destruct (Rle_dec x _), (Rle_dec (INR n) _); lra || reflexivity.
      * apply integral_plus; [exact IH|apply indicator_mean].
    + rewrite S_INR. pose proof (pos_INR n). unfold Rmin, Rmax.
      destruct (Rle_dec t 0), (Rle_dec (t - INR n) 0);
        repeat match goal with |- context [Rle_dec ?a ?b] => destruct (Rle_dec a b) end; lra.
Qed.

Lemma copies_pick_mean w i : prob_vec w -> (i < length w)%nat ->
  uniform_mean (fun u => INR (copies i (map (pick w (fun _ => u)) (seq 0 (length w))))) (INR (length w) * nth i w 0).
Proof.
  intros Hw Hi. set (n := length w).
  assert (M : forall k, uniform_mean (fun u => INR (upto (INR n * psum w k - u) n)) (INR n * psum w k)).
  { intros k. pose proof (psum_range w k Hw) as [A B]. pose proof (pos_INR n) as N.
    pose proof (upto_mean (INR n * psum w k) n) as H. rewrite Rmax_left, Rmin_left in H by nra. exact H. }
  replace (INR n * nth i w 0) with (INR n * psum w (S i) - INR n * psum w i) by (rewrite psum_S by exact Hi; ring).
  apply integral_ext with (f := fun u => INR (upto (INR n * psum w (S i) - u) n) - INR (upto (INR n * psum w i - u) n)); [lra| |].
  2: exact (integral_minus _ _ 0 1 _ _ (M (S i)) (M i)).
  intros u Hu.
  pose proof (copies_split i (map (pick w (fun _ => u)) (seq 0 (length w)))) as E.
  rewrite (filter_pick_upto w u i Hw ltac:(lra) Hi) in E. fold n in E |- *.
  rewrite <- E, plus_INR.
  destruct i as [|i]; cbn [Nat.eqb] in *.
  - assert (Z : forall k, upto (INR n * psum w 0 - u) k = 0%nat).
    { intros k. unfold upto. rewrite psum_0, Rmult_0_r. induction (seq 0 k) as [|a l IHl]; [reflexivity|]. cbn [filter].
      destruct (Rle_dec (INR a) (0 - u)) as [H|]; [pose proof (pos_INR a); lra|exact IHl]. }
    rewrite Z. assert (F : forall l : list nat, filter (fun _ => false) l = []) by (induction l; auto). rewrite F. cbn. ring.
  - replace (S i - 1)%nat with i by lia. unfold n. rewrite (filter_pick_upto w u i Hw ltac:(lra) ltac:(lia)). ring.
Qed.

Lemma uniform_ext f g m : (forall u, 0 < u < 1 -> f u = g u) -> uniform_mean f m -> uniform_mean g m.
Proof. intros H. apply integral_ext; [lra|exact H]. Qed.

(** * C85 *)

(** Normalised weights: particle [i] is selected [N w_i] times on average. *)
Theorem C85_systematic : forall lowest (w : list R) u i, prob_vec w -> (i < length w)%nat ->
  uniform_mean (fun c => INR (copies i (selected1 (systematic lowest (fun _ => c) (W1 (map Fin w)) true u)))) (INR (length w) * nth i w 0).
Proof.
  intros lowest w u i Hw Hi. refine (uniform_ext _ _ _ _ (copies_pick_mean w i Hw Hi)). intros c Hc.
  rewrite systematic_1d, systematic_row_fin by now apply prob_vec_nonempty. reflexivity.
Qed.
Print Assumptions C85_systematic.

(** Log weights (finite or -inf): the same with the normalised importance weights. *)
Theorem C85_systematic_log : forall lowest (l : list xf) u i, l <> [] -> (forall x, In x l -> finite_or_ninf x) -> (i < length l)%nat ->
  uniform_mean (fun c => INR (copies i (selected1 (systematic lowest (fun _ => c) (W1 l) false u)))) (INR (length l) * nth i (imp lowest l) 0).
Proof.
  intros lowest l u i Hne Hc Hi. assert (L : length (imp lowest l) = length l) by (unfold imp; apply map_length).
  rewrite <- L. refine (uniform_ext _ _ _ _ (C85_systematic lowest (imp lowest l) u i _ _)); [|now apply imp_prob|now rewrite L].
  intros c _. do 3 f_equal. unfold systematic, wrapper, normalize_arg.
  assert (Hex : exists x, In x l /\ usable lowest x).
  { destruct l as [|x l]; [congruence|]. exists x. split; [now left|]. apply fon_usable, Hc. now left. }
  rewrite (normalize_usable lowest l Hex). cbn [bind]. unfold imp. now rewrite map_map.
Qed.
Print Assumptions C85_systematic_log.

(** A batch of filters: filter [b] on average over its own draw, whatever the other draws are. *)
Theorem C85_systematic_batch : forall lowest (m : mat xf) (normalized : bool) (rand : nat -> R) b i,
  (0 < m_rows m)%nat -> (b < m_cols m)%nat -> (forall k, 0 <= rand k <= 1) -> (i < m_rows m)%nat ->
  forall w : list R, length w = m_rows m -> (if normalized then col m b = map Fin w /\ prob_vec w
             else (forall x, In x (col m b) -> finite_or_ninf x) /\ w = imp lowest (col m b)) ->
  uniform_mean (fun c => INR (copies i (selected2 b (systematic lowest (redraw rand b c) (W2 m) normalized None)))) (INR (m_rows m) * nth i w 0).
Proof.
  intros lowest m normalized rand b i Hn Hb Hr Hi w Lw Hw.
  apply uniform_ext with (f := fun c => INR (copies i (selected1 (systematic lowest (fun _ => c) (W1 (col m b)) normalized None)))).
  - intros c Hc. do 2 f_equal.
    destruct (C17_batch_is_columnwise lowest (redraw rand b c) m normalized Hn) as (out & -> & _ & _ & H).
    { intros k. unfold redraw. destruct (k =? b)%nat; [lra|apply Hr]. }
    specialize (H b Hb). unfold redraw in H. rewrite Nat.eqb_refl in H. rewrite H. reflexivity.
  - destruct normalized; destruct Hw as [Hc Hw].
    + rewrite Hc, <- Lw. apply C85_systematic; [exact Hw|now rewrite Lw].
    + subst w. assert (L : length (col m b) = m_rows m) by (unfold col; now rewrite map_length, seq_length).
      rewrite <- L. apply C85_systematic_log; [|exact Hc|now rewrite L]. intros E. rewrite E in L. simpl in L. lia.
Qed.
Print Assumptions C85_systematic_batch.

(** A law of draws under which torch.multinomial is fair: of [m <= n] draws with replacement from the [n] non-negative numbers [p],
    [m p_i / sum p] are [i] on average. *)
Definition row (r : res (list nat)) : list nat := match r with Ok l => l | Raise _ => [] end.
Definition fair_multinomial {A} (L : law A) (n : nat) (draw : A -> list xf -> nat -> res (list nat)) : Prop :=
  forall p m i, (forall x, In x p -> 0 <= x) -> 0 < Rsum p -> length p = n -> (m <= n)%nat -> (i < n)%nat ->
    (forall a, supp L a -> exists l, draw a (map Fin p) m = Ok l) /\
    averages L (fun a => INR (copies i (row (draw a (map Fin p) m)))) (INR m * (nth i p 0 / Rsum p)).

Lemma fraction_sum c (l : list R) : Rsum (map (fun x => (x - IZR (Int_part x)) / c) l) = (Rsum l - IZR (fold_right Z.add 0%Z (map Int_part l))) / c.
Proof.
  unfold Rsum. induction l as [|a l IH]; cbn [map fold_right]; [unfold Rdiv; ring|]. rewrite IH, plus_IZR. unfold Rdiv. ring.
Qed.

(** Residual resampling with a fair multinomial; multinomial resampling is the case of [C85_multinomial]. *)
Theorem C85_residual : forall lowest A (L : law A) draw (w : list R) i, law_ok L -> fair_multinomial L (length w) draw -> prob_vec w -> (i < length w)%nat ->
  averages L (fun a => INR (copies i (selected1 (residual lowest (draw a) (W1 (map Fin w)) true)))) (INR (length w) * nth i w 0).
Proof.
  intros lowest A L draw w i HL Hd Hw Hi.
  set (n := length w).
  assert (Hn : 0 < INR n) by (apply lt_0_INR; unfold n; lia).
  set (mw := map (fun x => INR n * x) w). set (fl := map Int_part mw). set (num := fold_right Z.add 0%Z fl).
  assert (Hmw : forall x, In x mw -> 0 <= x).
  { intros x Hx. apply in_map_iff in Hx. destruct Hx as (y & <- & Hy). apply Rmult_le_pos; [lra|]. now apply (proj1 Hw). }
  assert (Hfl : forall z, In z fl -> (0 <= z)%Z).
  { intros z Hz. apply in_map_iff in Hz. destruct Hz as (y & <- & Hy). apply Int_part_floor. now apply Hmw. }
  assert (Hsum : Rsum mw = INR n).
  { unfold mw. rewrite (Rsum_map_scale (fun x => x)), map_id, (proj2 Hw). lra. }
  destruct (Rsum_le_INR mw Hmw Hfl) as [B1 B2]. fold fl in B1, B2. fold num in B1, B2.
  assert (Hmwne : mw <> []) by (unfold mw; intros H; apply map_eq_nil in H; subst w; simpl in Hi; lia).
  specialize (B2 Hmwne). rewrite Hsum in B1, B2.
  assert (Elen : length mw = n) by (unfold mw; apply map_length). rewrite Elen in B2.
  rewrite INR_IZR_INZ in B1. apply le_IZR in B1.
  assert (Hpos : (0 < num)%Z) by (apply lt_IZR; lra).
  assert (Ei : nth i mw 0 = INR n * nth i w 0).
  { unfold mw. rewrite (nth_indep _ 0 (INR n * 0)) by now rewrite map_length. now rewrite (map_nth (fun x => INR n * x)). }
  assert (Ef : INR (copies i (repeat_interleave 0 (map Z.to_nat fl))) = IZR (Int_part (nth i mw 0))).
  { destruct (repeat_interleave_spec (map Z.to_nat fl) 0) as (_ & _ & L3). specialize (L3 i). cbn [Nat.add] in L3. rewrite L3.
    unfold fl. rewrite map_map, (nth_indep _ 0%nat (Z.to_nat (Int_part 0))) by (rewrite map_length, Elen; exact Hi).
    rewrite (map_nth (fun x => Z.to_nat (Int_part x))), INR_IZR_INZ, Z2Nat.id; [reflexivity|].
    apply Hfl, in_map, nth_In. now rewrite Elen. }
  assert (E : forall a, selected1 (residual lowest (draw a) (W1 (map Fin w)) true) =
    if (num =? Z.of_nat n)%Z then repeat_interleave 0 (map Z.to_nat fl)
    else match draw a (map Fin (map (fun x => (x - IZR (Int_part x)) / IZR num) mw)) (n - Z.to_nat num)%nat with
         | Ok extra => repeat_interleave 0 (map Z.to_nat fl) ++ extra | Raise _ => [] end).
  { intros a. unfold residual, wrapper, residual_rows. cbn [bind]. rewrite finite_row_fin. unfold residual_row. fold n. fold mw. fold fl. fold num.
    replace (existsb (fun z => (z <? 0)%Z) fl) with false.
    2: { symmetry. destruct (existsb _ fl) eqn:Ee; [|reflexivity]. apply existsb_exists in Ee. destruct Ee as (z & Hz & Ez). apply Z.ltb_lt in Ez. apply Hfl in Hz. lia. }
    destruct (Z.of_nat n <? num)%Z eqn:E2; [apply Z.ltb_lt in E2; lia|].
    destruct (num =? Z.of_nat n)%Z; [reflexivity|]. destruct (num =? 0)%Z eqn:E4; [apply Z.eqb_eq in E4; lia|].
    rewrite map_map. destruct (draw a _ _); reflexivity. }
  destruct (num =? Z.of_nat n)%Z eqn:E3.
  - (* every product is a whole number *)
    apply Z.eqb_eq in E3.
    assert (Hz : forall l, (forall x, In x l -> In x mw) -> Rsum l = IZR (fold_right Z.add 0%Z (map Int_part l)) -> forall x, In x l -> x = IZR (Int_part x)).
    { induction l as [|a l IH]; intros Hl Hs x Hx; [destruct Hx|]. cbn [map fold_right] in Hs. rewrite plus_IZR in Hs. unfold Rsum in Hs. cbn [fold_right] in Hs.
      destruct (base_Int_part a) as [A1 _]. destruct (Rsum_le_INR l) as [A2 _].
      - intros y Hy. apply Hmw, Hl. now right.
      - intros z Hz. apply in_map_iff in Hz. destruct Hz as (y & <- & Hy). apply Hfl, in_map, Hl. now right.
      - unfold Rsum in A2. destruct Hx as [<-|Hx]; [lra|]. apply IH; [intros; apply Hl; now right|unfold Rsum; lra|exact Hx]. }
    assert (Ex : nth i mw 0 = IZR (Int_part (nth i mw 0))).
    { apply (Hz mw); [auto| |apply nth_In; now rewrite Elen]. fold fl. fold num. rewrite Hsum, E3, INR_IZR_INZ. reflexivity. }
    apply (averages_ext L HL (fun _ => (INR n * nth i w 0)%R)); [|now apply averages_const].
    intros a _. rewrite E, Ef, <- Ex. now rewrite Ei.
  - apply Z.eqb_neq in E3.
    set (p := map (fun x => (x - IZR (Int_part x)) / IZR num) mw) in *.
    assert (Hnp : 0 < IZR num) by (apply IZR_lt; lia).
    assert (Hm : INR (n - Z.to_nat num) = INR n - IZR num).
    { rewrite minus_INR by lia. now rewrite (INR_IZR_INZ (Z.to_nat num)), Z2Nat.id by lia. }
    assert (Hlt : IZR num < INR n) by (rewrite INR_IZR_INZ; apply IZR_lt; lia).
    assert (Sp : Rsum p = (INR n - IZR num) / IZR num) by (unfold p; rewrite fraction_sum, Hsum; reflexivity).
    assert (Lp : length p = n) by (unfold p; now rewrite map_length).
    assert (Ep : nth i p 0 = (nth i mw 0 - IZR (Int_part (nth i mw 0))) / IZR num).
    { unfold p. rewrite (nth_indep _ 0 ((0 - IZR (Int_part 0)) / IZR num)) by now rewrite map_length, Elen.
      now rewrite (map_nth (fun x => (x - IZR (Int_part x)) / IZR num)). }
    destruct (Hd p (n - Z.to_nat num)%nat i) as [D0 [D1 D2]].
    + intros x Hx. apply in_map_iff in Hx. destruct Hx as (y & <- & Hy). destruct (base_Int_part y). apply Rmult_le_pos; [lra|]. left. now apply Rinv_0_lt_compat.
    + rewrite Sp. apply Rmult_lt_0_compat; [lra|]. now apply Rinv_0_lt_compat.
    + exact Lp.
    + fold n. lia.
    + exact Hi.
    + pose proof (averages_lin L HL 1 1 _ _ _ _ (averages_const L HL (INR (copies i (repeat_interleave 0 (map Z.to_nat fl))))) (conj D1 D2)) as F.
      replace (INR n * nth i w 0) with (1 * INR (copies i (repeat_interleave 0 (map Z.to_nat fl))) + 1 * (INR (n - Z.to_nat num) * (nth i p 0 / Rsum p))).
      * refine (averages_ext L HL _ _ _ _ F).
        intros a Ha. rewrite E. cbn beta. destruct (D0 a Ha) as [l El]. rewrite El. cbn [row]. rewrite copies_app, plus_INR. ring.
      * rewrite Ef, Hm, Ep, Sp, Ei. field. lra.
Qed.
Print Assumptions C85_residual.

(** Multinomial resampling of normalised weights. *)
Theorem C85_multinomial : forall lowest A (L : law A) (draw : A -> list xf -> nat -> res (list nat)) (w : list R) i, law_ok L -> fair_multinomial L (length w) draw ->
  prob_vec w -> (i < length w)%nat ->
  averages L (fun a => INR (copies i (selected1 (multinomial lowest (fun _ => draw a) (W1 (map Fin w)) true)))) (INR (length w) * nth i w 0).
Proof.
  intros lowest A L draw w i HL Hd Hw Hi. destruct (Hd w (length w) i (proj1 Hw)) as [D0 [D1 D2]]; [rewrite (proj2 Hw); lra|reflexivity|lia|exact Hi|].
  replace (INR (length w) * nth i w 0) with (INR (length w) * (nth i w 0 / Rsum w)) by (rewrite (proj2 Hw); field).
  refine (averages_ext L HL _ _ _ _ (conj D1 D2)). intros a Ha. cbn beta. unfold multinomial, wrapper, multinomial_rows. cbn [bind].
  rewrite map_length. destruct (D0 a Ha) as [l El]. rewrite El. reflexivity.
Qed.
Print Assumptions C85_multinomial.

(** A fair multinomial: all [m] draws are the same entry, chosen by inverting the distribution function at a uniform number. *)
Definition lumped (a : R) (p : list xf) (m : nat) : res (list nat) :=
  let q := map real_of p in
  Ok (repeat (searchsorted (set_last (Fin 1) (cumsum (map Fin (map (fun x => x / Rsum q) q)))) (Fin a)) m).
Lemma lumped_fair n : fair_multinomial uniform n lumped.
Proof.
  intros p m i Hp Hs Ln _ Hi. rewrite <- Ln in Hi. split; [intros a _; eexists; reflexivity|].
  set (q := map (fun x => x / Rsum p) p).
  assert (Hq : prob_vec q).
  { split.
    - intros x Hx. apply in_map_iff in Hx. destruct Hx as (y & <- & Hy). apply Rmult_le_pos; [now apply Hp|]. left. now apply Rinv_0_lt_compat.
    - unfold q. rewrite (map_ext _ (fun x => / Rsum p * x)) by (intros; unfold Rdiv; ring).
      rewrite (Rsum_map_scale (fun x => x)), map_id. field. lra. }
  assert (Lq : length q = length p) by apply map_length.
  assert (M : forall k, averages uniform (fun u => if Rle_dec u (psum q k) then 1 else 0) (psum q k)).
  { intros k. apply uniform_is. pose proof (psum_range q k Hq) as [A B]. pose proof (indicator_mean (psum q k)) as H.
    rewrite Rmax_left, Rmin_left in H by lra. exact H. }
  replace (INR m * (nth i p 0 / Rsum p)) with (INR m * psum q (S i) + - INR m * psum q i).
  2: { rewrite psum_S by (rewrite Lq; exact Hi). unfold q at 2. rewrite (nth_indep _ 0 (0 / Rsum p)) by (rewrite map_length; exact Hi).
       rewrite (map_nth (fun x => x / Rsum p)). ring. }
  refine (averages_ext uniform uniform_ok _ _ _ _ (averages_lin uniform uniform_ok (INR m) (- INR m) _ _ _ _ (M (S i)) (M i))).
  intros u [U1 U2]. cbn beta. unfold lumped. assert (Er : map real_of (map Fin p) = p) by (rewrite map_map; apply map_id). rewrite Er. cbn zeta. fold q. cbn [row]. rewrite copies_repeat.
  set (r := searchsorted _ _).
  pose proof (fun k (Hk : (k < length q)%nat) => select_le q u k Hq (Rlt_le _ _ U2) Hk) as S. cbn zeta in S. fold r in S.
  pose proof (S i ltac:(rewrite Lq; exact Hi)) as S1.
  assert (S0 : (r < i)%nat <-> u <= psum q i).
  { destruct i as [|i]; [rewrite psum_0; split; [lia|lra]|]. rewrite <- (S i) by (rewrite Lq; lia). lia. }
  destruct (Nat.eq_dec r i) as [E|E], (Rle_dec u (psum q (Datatypes.S i))) as [R1|R1], (Rle_dec u (psum q i)) as [R0|R0];
    try (apply S1 in R1 || (assert (~ (r <= i)%nat) by now rewrite S1)); try (apply S0 in R0 || (assert (~ (r < i)%nat) by now rewrite S0)); try lia; cbn [INR]; ring.
Qed.

Example C85_nonvacuous : prob_vec [/8; 7/8] /\ (exists draw : R -> list xf -> nat -> res (list nat), law_ok uniform /\ fair_multinomial uniform 2 draw) /\
  uniform_mean (fun c => INR (copies 0 (selected1 (systematic 0 (fun _ => c) (W1 (map Fin [/8; 7/8])) true None)))) (/4).
Proof.
  assert (Hw : prob_vec [/8; 7/8]) by (split; [simpl; intros x [<-|[<-|[]]]; lra|unfold Rsum; simpl; lra]).
  split; [exact Hw|]. split; [exists lumped; split; [exact uniform_ok|apply lumped_fair]|]. replace (/4) with (INR (length [/8; 7/8]) * nth 0 [/8; 7/8] 0) by (simpl; lra). apply C85_systematic; [exact Hw|simpl; lia].
Qed.
