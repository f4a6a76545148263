From Coq Require Import Reals List Bool Arith ZArith Lra Lia Psatz Sorting.Sorted.
From Verif.Model Require Import Base Xf Tensor Weights Resampling.
From Verif.Spec Require Import WeightsSpec ResamplingSpec.
From Verif.Proofs Require Import WeightsProofs MomentsProofs.
Import ListNotations.
Open Scope R_scope.

(** * Bisection *)

Lemma lower_bound_spec bd val : forall fuel start stop, (stop - start <= fuel)%nat -> (start <= stop)%nat ->
  let r := lower_bound fuel start stop bd val in
  (start <= r <= stop)%nat /\
  (r = stop \/ xle val (bd r) = true) /\
  (r = start \/ xle val (bd (r - 1)%nat) = false).
Proof.
  induction fuel as [|fuel IH]; intros start stop Hf Hs; cbn [lower_bound].
  - assert (start = stop) by lia. subst. repeat split; auto.
  - destruct (start <? stop)%nat eqn:E.
    2:{ apply Nat.ltb_ge in E. assert (start = stop) by lia. subst. repeat split; auto. }
    apply Nat.ltb_lt in E.
    set (mid := (start + (stop - start) / 2)%nat).
    assert (Hm : (start <= mid < stop)%nat).
    { unfold mid. pose proof (Nat.div_lt (stop - start) 2). split; [lia|]. specialize (H ltac:(lia) ltac:(lia)). lia. }
    destruct (xle val (bd mid)) eqn:Ex; cbn [negb].
    + destruct (IH start mid ltac:(lia) ltac:(lia)) as (H1 & H2 & H3). split; [lia|]. split; [|exact H3].
      destruct H2 as [->|H2]; right; assumption.
    + destruct (IH (S mid) stop ltac:(lia) ltac:(lia)) as (H1 & H2 & H3). split; [lia|]. split; [exact H2|].
      right. destruct H3 as [->|H3]; [|exact H3]. replace (S mid - 1)%nat with mid by lia. exact Ex.
Qed.

Lemma searchsorted_spec l val :
  let r := searchsorted l val in
  (r <= length l)%nat /\
  (r = length l \/ xle val (nth r l NaN) = true) /\
  (r = 0%nat \/ xle val (nth (r - 1) l NaN) = false).
Proof.
  unfold searchsorted. destruct (lower_bound_spec (fun i => nth i l NaN) val (length l) 0 (length l)) as (H1 & H2 & H3); [lia|lia|].
  repeat split; try assumption. lia.
Qed.

Lemma length_cumsum acc l : length (cumsum_from acc l) = length l.
Proof. revert acc; induction l; simpl; intros; [reflexivity|]. now rewrite IHl. Qed.

Lemma length_set_last v l : length (set_last v l) = length l.
Proof. induction l as [|a [|b l] IH]; simpl in *; auto. Qed.

Lemma nth_set_last_last v l : l <> [] -> nth (length l - 1) (set_last v l) NaN = v.
Proof.
  induction l as [|a [|b l] IH]; intros H; [congruence|reflexivity|].
  change (set_last v (a :: b :: l)) with (a :: set_last v (b :: l)).
  specialize (IH ltac:(discriminate)). cbn [length] in *. replace (S (S (length l)) - 1)%nat with (S (S (length l) - 1)) by lia.
  exact IH.
Qed.

Lemma nth_set_last_other v l i : (i < length l - 1)%nat -> nth i (set_last v l) NaN = nth i l NaN.
Proof.
  revert i; induction l as [|a [|b l] IH]; intros i H; simpl in H; try lia.
  change (set_last v (a :: b :: l)) with (a :: set_last v (b :: l)).
  destruct i as [|i]; [reflexivity|]. cbn [nth]. apply IH. simpl. lia.
Qed.

(** Valid indices whatever the weights. *)
Lemma systematic_row_valid w u :
  w <> [] -> (forall k, 0 <= u k <= 1) ->
  exists out, systematic_row w u = Ok out /\ length out = length w /\ (forall i, In i out -> (i < length w)%nat).
Proof.
  intros Hne Hu. unfold systematic_row. destruct w as [|w0 w']; [congruence|]. set (w := w0 :: w') in *.
  eexists. split; [reflexivity|]. split; [now rewrite map_length, seq_length|].
  intros i Hi. apply in_map_iff in Hi. destruct Hi as (k & <- & Hk). apply in_seq in Hk.
  set (cum := set_last (Fin 1) (cumsum w)).
  assert (Hlen : length cum = length w) by (unfold cum, cumsum; now rewrite length_set_last, length_cumsum).
  set (v := (INR k + u k) / INR (length w)).
  assert (Hv : v <= 1).
  { unfold v. assert (0 < INR (length w)) by (apply lt_0_INR; simpl; lia).
    apply Rmult_le_reg_r with (INR (length w)); [assumption|]. unfold Rdiv. rewrite Rmult_assoc, Rinv_l, !Rmult_1_r, Rmult_1_l by lra.
    assert (INR k + 1 <= INR (length w)); [|specialize (Hu k); lra].
    rewrite <- S_INR. apply le_INR. lia. }
  destruct (searchsorted_spec cum (Fin v)) as (H1 & _ & H3).
  destruct (Nat.eq_dec (searchsorted cum (Fin v)) (length cum)) as [E|E]; [|lia].
  exfalso. rewrite E in H3. destruct H3 as [H3|H3].
  - rewrite Hlen in H3. discriminate.
  - assert (El : nth (length cum - 1) cum NaN = Fin 1).
    { rewrite Hlen. unfold cum. rewrite <- (length_cumsum (Fin 0) w). apply nth_set_last_last. discriminate. }
    rewrite El in H3. unfold xle in H3. simpl in H3. apply orb_false_iff in H3. destruct H3 as [H3 H4].
    destruct (Rlt_dec v 1); [discriminate|]. destruct (Req_EM_T v 1); [discriminate|]. lra.
Qed.

(** * Probability vectors *)

Lemma psum_S w i : (i < length w)%nat -> psum w (S i) = psum w i + nth i w 0.
Proof.
  unfold psum. revert i; induction w as [|a w IH]; intros i Hi; simpl in Hi; [lia|].
  destruct i as [|i].
  - simpl. unfold Rsum; simpl. lra.
  - change (firstn (S (S i)) (a :: w)) with (a :: firstn (S i) w). change (firstn (S i) (a :: w)) with (a :: firstn i w).
    specialize (IH i ltac:(lia)). unfold Rsum in *. cbn [nth]. revert IH. generalize (firstn (S i) w) (firstn i w). intros l1 l2 IH.
    cbn [fold_right]. lra.
Qed.

Lemma psum_0 w : psum w 0 = 0. Proof. reflexivity. Qed.

Lemma psum_all w : psum w (length w) = Rsum w.
Proof. unfold psum. now rewrite firstn_all. Qed.

Lemma psum_mono w i j : (forall x, In x w -> 0 <= x) -> (i <= j)%nat -> psum w i <= psum w j.
Proof.
  intros Hn Hij. induction Hij as [|j Hij IH]; [lra|].
  destruct (Nat.lt_ge_cases j (length w)) as [Hj|Hj].
  - rewrite psum_S by assumption. pose proof (Hn (nth j w 0) (nth_In w 0 Hj)). lra.
  - unfold psum in *. rewrite (firstn_all2 (n := S j)) by lia. rewrite (firstn_all2 (n := j)) in IH by lia. assumption.
Qed.

Lemma psum_range w i : prob_vec w -> 0 <= psum w i <= 1.
Proof.
  intros [Hn Hs]. split.
  - rewrite <- (psum_0 w). apply psum_mono; [assumption|lia].
  - destruct (Nat.le_ge_cases i (length w)) as [H|H].
    + rewrite <- Hs, <- psum_all. now apply psum_mono.
    + unfold psum. rewrite firstn_all2 by assumption. lra.
Qed.

Lemma cumsum_fin acc w i : (i < length w)%nat ->
  nth i (cumsum_from (Fin acc) (map Fin w)) NaN = Fin (acc + psum w (S i)).
Proof.
  revert acc i; induction w as [|a w IH]; intros acc i Hi; simpl in Hi; [lia|].
  simpl map. cbn [cumsum_from xadd]. destruct i as [|i].
  - simpl. f_equal. unfold psum, Rsum; simpl. lra.
  - cbn [nth]. rewrite IH by lia. f_equal. unfold psum. rewrite (firstn_cons (S i)). unfold Rsum. cbn [fold_right]. lra.
Qed.

Lemma cum_nth w i : prob_vec w -> (i < length w)%nat ->
  nth i (set_last (Fin 1) (cumsum (map Fin w))) NaN = Fin (psum w (S i)).
Proof.
  intros [_ Hs] Hi. unfold cumsum.
  assert (Hl : length (cumsum_from (Fin 0) (map Fin w)) = length w) by now rewrite length_cumsum, map_length.
  destruct (Nat.eq_dec i (length w - 1)) as [->|Hne].
  - rewrite <- Hl at 1. rewrite nth_set_last_last.
    + replace (S (length w - 1)) with (length w) by lia. now rewrite psum_all, Hs.
    + intros H. rewrite H in Hl. simpl in Hl. lia.
  - rewrite nth_set_last_other by lia. rewrite cumsum_fin by assumption. now rewrite Rplus_0_l.
Qed.

Lemma xle_fin a b : xle (Fin a) (Fin b) = true <-> a <= b.
Proof.
  unfold xle; simpl. destruct (Rlt_dec a b), (Req_EM_T a b); simpl; split; intros; try lra; try discriminate; auto.
Qed.

(** The selected index of a value: first partial sum that reaches it. *)
Lemma select_le w v i : prob_vec w -> v <= 1 -> (i < length w)%nat ->
  let r := searchsorted (set_last (Fin 1) (cumsum (map Fin w))) (Fin v) in
  (r <= i)%nat <-> v <= psum w (S i).
Proof.
  intros Hw Hv Hi. set (cum := set_last (Fin 1) (cumsum (map Fin w))).
  assert (Hlen : length cum = length w) by (unfold cum, cumsum; now rewrite length_set_last, length_cumsum, map_length).
  destruct (searchsorted_spec cum (Fin v)) as (H1 & H2 & H3). simpl. rewrite Hlen in *.
  set (r := searchsorted cum (Fin v)) in *. split.
  - intros Hr. destruct H2 as [H2|H2]; [lia|].
    unfold cum in H2. rewrite cum_nth in H2 by (assumption || lia). apply xle_fin in H2.
    pose proof (psum_mono w (S r) (S i) (proj1 Hw) ltac:(lia)). lra.
  - intros Hvi. destruct H3 as [H3|H3]; [lia|].
    destruct (Nat.le_gt_cases r i) as [|Hgt]; [assumption|]. exfalso.
    unfold cum in H3. rewrite cum_nth in H3 by (assumption || lia).
    assert (Hc : v <= psum w (S (r - 1))).
    { pose proof (psum_mono w (S i) (S (r - 1)) (proj1 Hw) ltac:(lia)). lra. }
    apply xle_fin in Hc. congruence.
Qed.

Definition grid (n : nat) (u : nat -> R) (k : nat) : R := (INR k + u k) / INR n.

Lemma grid_le_1 n u k : (k < n)%nat -> u k <= 1 -> grid n u k <= 1.
Proof.
  intros Hk Hu. unfold grid. assert (0 < INR n) by (apply lt_0_INR; lia).
  apply Rmult_le_reg_r with (INR n); [assumption|]. unfold Rdiv. rewrite Rmult_assoc, Rinv_l, !Rmult_1_r, Rmult_1_l by lra.
  assert (INR k + 1 <= INR n); [|lra]. rewrite <- S_INR. apply le_INR. lia.
Qed.

Definition pick (w : list R) (u : nat -> R) (k : nat) : nat :=
  searchsorted (set_last (Fin 1) (cumsum (map Fin w))) (Fin (grid (length w) u k)).

Lemma systematic_row_fin w u : w <> [] ->
  systematic_row (map Fin w) u = Ok (map (pick w u) (seq 0 (length w))).
Proof.
  intros Hne. unfold systematic_row, pick, grid. destruct w as [|a w]; [congruence|].
  change (map Fin (a :: w)) with (Fin a :: map Fin w) at 1. cbv iota beta.
  rewrite map_length. reflexivity.
Qed.

Lemma pick_le w u k i : prob_vec w -> (k < length w)%nat -> u k <= 1 -> (i < length w)%nat ->
  (pick w u k <= i)%nat <-> INR k <= INR (length w) * psum w (S i) - u k.
Proof.
  intros Hw Hk Hu Hi. unfold pick. rewrite (select_le w (grid (length w) u k) i Hw) by (auto using grid_le_1).
  unfold grid. assert (0 < INR (length w)) by (apply lt_0_INR; lia). split; intros H1.
  - apply Rmult_le_compat_r with (r := INR (length w)) in H1; [|lra]. unfold Rdiv in H1.
    rewrite Rmult_assoc, Rinv_l, Rmult_1_r in H1 by lra. lra.
  - apply Rmult_le_reg_r with (INR (length w)); [assumption|]. unfold Rdiv. rewrite Rmult_assoc, Rinv_l, Rmult_1_r by lra. lra.
Qed.

Lemma pick_mono w u k k' : prob_vec w -> (forall k, 0 <= u k <= 1) -> (k < k')%nat -> (k' < length w)%nat ->
  (pick w u k <= pick w u k')%nat.
Proof.
  intros Hw Hu Hkk Hk'.
  assert (Hv : (pick w u k' < length w)%nat).
  { assert (Hpos : (0 < length w)%nat) by lia.
    assert (Hle : (pick w u k' <= length w - 1)%nat); [|lia].
    apply pick_le; try assumption; try lia; [apply Hu|].
    replace (S (length w - 1)) with (length w) by lia. rewrite psum_all, (proj2 Hw), Rmult_1_r.
    assert (INR k' + 1 <= INR (length w)) by (rewrite <- S_INR; apply le_INR; lia). specialize (Hu k'). lra. }
  apply pick_le; try assumption; try lia; [apply Hu|].
  pose proof (proj1 (pick_le w u k' (pick w u k') Hw Hk' (proj2 (Hu k')) Hv) ltac:(lia)) as H.
  assert (INR k + 1 <= INR k') by (rewrite <- S_INR; apply le_INR; lia).
  pose proof (Hu k). pose proof (Hu k'). lra.
Qed.

(** * Counting *)

(** How many grid numbers 0..n-1 are at most [t]. *)
Definition upto (t : R) (n : nat) : nat :=
  length (filter (fun k => if Rle_dec (INR k) t then true else false) (seq 0 n)).

Lemma upto_spec t n : let c := upto t n in
  (c <= n)%nat /\ (c = 0%nat \/ INR c - 1 <= t) /\ (c = n \/ t < INR c).
Proof.
  unfold upto. induction n as [|n IH]; [simpl; auto|].
  rewrite seq_S, filter_app, app_length. cbn [Nat.add filter].
  destruct IH as (H1 & H2 & H3). set (c := length _) in *. clearbody c.
  destruct (Rle_dec (INR n) t) as [Hn|Hn]; cbn [length].
  - assert (c = n).
    { destruct H3 as [|H3]; [assumption|]. apply INR_lt in H3 || idtac.
      assert (INR n < INR c) by lra. apply INR_lt in H. lia. }
    subst c. replace (n + 1)%nat with (S n) by lia. repeat split; auto.
    right. rewrite S_INR. lra.
  - rewrite Nat.add_0_r. repeat split; auto. right.
    destruct H3 as [->|]; lra.
Qed.

Lemma copies_split i l :
  (copies i l + length (filter (fun j => if (i =? 0)%nat then false else (j <=? i - 1)%nat) l) =
   length (filter (fun j => (j <=? i)%nat) l))%nat.
Proof.
  unfold copies. induction l as [|a l IH]; [reflexivity|]. simpl.
  destruct (Nat.eq_dec a i) as [->|Hne].
  - rewrite Nat.leb_refl. simpl. destruct (i =? 0)%nat eqn:E.
    + lia.
    + apply Nat.eqb_neq in E. destruct (i <=? i - 1)%nat eqn:E2; [apply Nat.leb_le in E2; lia|]. lia.
  - destruct (a <=? i)%nat eqn:E1.
    + apply Nat.leb_le in E1. simpl. destruct (i =? 0)%nat eqn:E; [apply Nat.eqb_eq in E; lia|].
      destruct (a <=? i - 1)%nat eqn:E2; [simpl; lia|]. apply Nat.leb_gt in E2. lia.
    + apply Nat.leb_gt in E1. destruct (i =? 0)%nat eqn:E; [lia|].
      destruct (a <=? i - 1)%nat eqn:E2; [apply Nat.leb_le in E2; lia|]. lia.
Qed.

Lemma filter_pick_upto w c i : prob_vec w -> 0 <= c <= 1 -> (i < length w)%nat ->
  length (filter (fun j => (j <=? i)%nat) (map (pick w (fun _ => c)) (seq 0 (length w)))) =
  upto (INR (length w) * psum w (S i) - c) (length w).
Proof.
  intros Hw Hc Hi. unfold upto.
  assert (E : forall l, (forall k, In k l -> (k < length w)%nat) ->
    length (filter (fun j => (j <=? i)%nat) (map (pick w (fun _ => c)) l)) =
    length (filter (fun k => if Rle_dec (INR k) (INR (length w) * psum w (S i) - c) then true else false) l)).
  { induction l as [|k l IH]; intros Hl; [reflexivity|]. simpl map. cbn [filter].
    pose proof (pick_le w (fun _ => c) k i Hw (Hl k (or_introl eq_refl)) (proj2 Hc) Hi) as Hp.
    specialize (IH (fun k Hk => Hl k (or_intror Hk))).
    destruct (pick w (fun _ => c) k <=? i)%nat eqn:E1.
    - apply Nat.leb_le, Hp in E1. destruct (Rle_dec _ _); [|contradiction]. cbn [length]. now rewrite IH.
    - apply Nat.leb_gt in E1. destruct (Rle_dec _ _) as [H|]; [apply Hp in H; lia|]. exact IH. }
  apply E. intros k Hk. apply in_seq in Hk. lia.
Qed.

Lemma copies_bounds w c i : prob_vec w -> 0 <= c < 1 -> (i < length w)%nat ->
  let N := copies i (map (pick w (fun _ => c)) (seq 0 (length w))) in
  within_one N (INR (length w) * nth i w 0) /\
  (0 < c -> strictly_within_one N (INR (length w) * nth i w 0)).
Proof.
  intros Hw Hc Hi. set (out := map _ _). simpl.
  pose proof (copies_split i out) as Hsplit.
  unfold out in Hsplit at 3. rewrite filter_pick_upto in Hsplit by (assumption || lra).
  set (n := length w) in *. assert (Hn : 0 < INR n) by (apply lt_0_INR; lia).
  set (t := INR n * psum w (S i) - c) in *.
  destruct (upto_spec t n) as (B1 & B2 & B3). set (F := upto t n) in *.
  pose proof (psum_range w (S i) Hw) as Hr.
  assert (HtU : t <= INR n - c) by (unfold t; nra).
  assert (HtL : - c <= t) by (unfold t; nra).
  assert (HF1 : INR F <= t + 1) by (destruct B2 as [->|]; [simpl; lra|lra]).
  assert (HF2 : t <= INR F /\ (0 < c -> t < INR F)).
  { destruct B3 as [->|]; [|lra]. lra. }
  assert (Hprev : (exists G : nat, (copies i out + G)%nat = F /\
     INR G <= INR n * psum w i - c + 1 /\ (INR n * psum w i - c <= INR G) /\ (0 < c -> INR n * psum w i - c < INR G)) \/
     (i = 0%nat /\ copies i out = F)).
  { destruct i as [|i'].
    - right. split; [reflexivity|]. simpl in Hsplit.
      assert (E0 : filter (fun _ : nat => false) out = []) by (clear; induction out; auto).
      rewrite E0 in Hsplit. simpl in Hsplit. lia.
    - left. simpl in Hsplit. rewrite Nat.sub_0_r in Hsplit. unfold out in Hsplit at 2.
      rewrite filter_pick_upto in Hsplit by (assumption || lra || (fold n; lia)).
      fold n in Hsplit. set (t' := INR n * psum w (S i') - c) in *.
      destruct (upto_spec t' n) as (C1 & C2 & C3). set (G := upto t' n) in *.
      pose proof (psum_range w (S i') Hw) as Hr'.
      exists G. split; [assumption|].
      assert (t' <= INR n - c) by (unfold t'; nra). assert (- c <= t') by (unfold t'; nra).
      split; [destruct C2 as [->|]; [simpl; lra|lra]|]. split; [destruct C3 as [->|]; lra|].
      intros. destruct C3 as [->|]; lra. }
  assert (Et : t = INR n * psum w i + INR n * nth i w 0 - c).
  { unfold t. rewrite psum_S by assumption. ring. }
  clearbody t F. unfold within_one, strictly_within_one. revert Et. set (r := INR n * nth i w 0). intros Et.
  destruct Hprev as [(G & HG & G1 & G2 & G3)|[-> HG]].
  - assert (E : INR (copies i out) = INR F - INR G) by (rewrite <- HG, plus_INR; lra).
    revert Et G1 G2 G3. set (q := INR n * psum w i). intros Et G1 G2 G3.
    rewrite E. split; [apply Rabs_le; lra|]. intros Hcp. specialize (G3 Hcp). apply (proj2 HF2) in Hcp.
    apply Rabs_def1; lra.
  - rewrite HG. rewrite psum_0, Rmult_0_r in Et. split; [apply Rabs_le; lra|].
    intros Hcp. pose proof (proj2 HF2 Hcp). apply Rabs_def1; lra.
Qed.

(** Zero weights. *)
Lemma pick_zero w u k i : prob_vec w -> (forall k, 0 <= u k <= 1) -> (k < length w)%nat -> (i < length w)%nat ->
  nth i w 0 = 0 -> (0 < i)%nat \/ 0 < INR k + u k -> pick w u k <> i.
Proof.
  intros Hw Hu Hk Hi Hz Hc E.
  pose proof (proj1 (pick_le w u k i Hw Hk (proj2 (Hu k)) Hi) ltac:(lia)) as H1.
  rewrite psum_S, Hz, Rplus_0_r in H1 by assumption.
  destruct i as [|i].
  - rewrite psum_0 in H1. destruct Hc as [Hc|Hc]; [lia|]. lra.
  - apply (pick_le w u k i Hw Hk (proj2 (Hu k))) in H1; [|lia]. lia.
Qed.

(** * Two-pointer reference *)

Lemma two_pointer_spec cs : forall fuel ps j f,
  (forall p, In p ps -> (f p < length cs)%nat /\ (j <= f p)%nat /\
                        p < nth (f p) cs 0 /\ (forall i, (i < f p)%nat -> nth i cs 0 <= p)) ->
  Sorted.StronglySorted Rle ps ->
  (length cs - j + length ps < fuel)%nat -> (j <= length cs)%nat ->
  two_pointer fuel ps cs j = Some (map f ps).
Proof.
  induction fuel as [|fuel IH]; intros ps j f Hf Hs Hfu Hj; [lia|].
  cbn [two_pointer]. destruct ps as [|p ps]; [reflexivity|].
  destruct (Hf p (or_introl eq_refl)) as (F1 & F2 & F3 & F4).
  destruct (nth_error cs j) as [c|] eqn:Ec; [|apply nth_error_None in Ec; lia].
  assert (Ecn : nth j cs 0 = c) by (apply nth_error_nth; assumption).
  inversion Hs as [|? ? Hs' Hfa]; subst.
  destruct (Rlt_dec p (nth j cs 0)) as [Hlt|Hge].
  - assert (f p = j).
    { destruct (Nat.lt_ge_cases j (f p)) as [Hlt'|]; [|lia]. specialize (F4 j Hlt'). lra. }
    rewrite (IH ps j f).
    + simpl. now rewrite H.
    + intros q Hq. apply Hf. now right.
    + assumption.
    + simpl in Hfu. lia.
    + assumption.
  - assert (j < f p)%nat.
    { destruct (Nat.eq_dec j (f p)) as [E|]; [|lia]. rewrite <- E in F3. lra. }
    apply IH; [|assumption|simpl in *; lia|lia].
    intros q Hq. destruct (Hf q Hq) as (Q1 & Q2 & Q3 & Q4). repeat split; try assumption.
    destruct Hq as [<-|Hq]; [lia|]. destruct (Nat.eq_dec j (f q)) as [E|]; [|lia].
    rewrite <- E in Q3. rewrite Forall_forall in Hfa. specialize (Hfa q Hq). lra.
Qed.

Lemma pick_lt w u k : prob_vec w -> (forall k, 0 <= u k <= 1) -> (k < length w)%nat -> (pick w u k < length w)%nat.
Proof.
  intros Hw Hu Hk. assert (Hle : (pick w u k <= length w - 1)%nat); [|lia].
  apply pick_le; try assumption; try lia; [apply Hu|].
  replace (S (length w - 1)) with (length w) by lia. rewrite psum_all, (proj2 Hw), Rmult_1_r.
  assert (INR k + 1 <= INR (length w)) by (rewrite <- S_INR; apply le_INR; lia). specialize (Hu k). lra.
Qed.

Lemma grid_sorted n u : (forall k, 0 <= u k <= 1) -> forall len start,
  Sorted.StronglySorted Rle (map (grid n u) (seq start len)) \/ n = 0%nat.
Proof.
  intros Hu len start. destruct n as [|n]; [now right|left].
  revert start; induction len as [|len IH]; intros start; simpl; constructor; [apply IH|].
  apply Forall_forall. intros x Hx. apply in_map_iff in Hx. destruct Hx as (k & <- & Hk). apply in_seq in Hk.
  unfold grid, Rdiv. apply Rmult_le_compat_r.
  - left. apply Rinv_0_lt_compat, lt_0_INR. lia.
  - assert (INR start + 1 <= INR k) by (rewrite <- S_INR; apply le_INR; lia).
    pose proof (Hu start). pose proof (Hu k). lra.
Qed.

Lemma matches_two_pointer w u : prob_vec w -> (forall k, 0 <= u k < 1) -> tie_free w u ->
  filterpy_systematic w u = Some (map (pick w u) (seq 0 (length w))).
Proof.
  intros Hw Hu Htf. unfold filterpy_systematic.
  assert (Hu1 : forall k, 0 <= u k <= 1) by (intros k; specialize (Hu k); lra).
  assert (Hne : w <> []) by now apply prob_vec_nonempty.
  set (n := length w). assert (Hn : (0 < n)%nat) by (unfold n; destruct w; [congruence|simpl; lia]).
  set (cum := set_last (Fin 1) (cumsum (map Fin w))).
  set (f := fun p => searchsorted cum (Fin p)).
  assert (Eg : map (fun i => (u i + INR i) / INR n) (seq 0 n) = map (grid n u) (seq 0 n)).
  { apply map_ext. intros i. unfold grid. now rewrite Rplus_comm. }
  rewrite Eg. rewrite (two_pointer_spec _ _ _ _ f).
  - now rewrite map_map.
  - intros p Hp. apply in_map_iff in Hp. destruct Hp as (k & <- & Hk). apply in_seq in Hk.
    assert (Ef : f (grid n u k) = pick w u k) by reflexivity. rewrite Ef, map_length, seq_length.
    pose proof (pick_lt w u k Hw Hu1 ltac:(fold n; lia)) as Hlt. fold n in Hlt.
    assert (Enth : forall i, (i < n)%nat -> nth i (map (fun i => psum w (S i)) (seq 0 n)) 0 = psum w (S i)).
    { intros i Hi. rewrite (nth_indep _ 0 (psum w (S 0))) by now rewrite map_length, seq_length.
      change (psum w 1) with ((fun i => psum w (S i)) 0%nat). rewrite map_nth, seq_nth by assumption. reflexivity. }
    assert (Hgrid : grid n u k <= 1) by (apply grid_le_1; [lia|apply Hu1]).
    repeat split; try lia.
    + rewrite Enth by assumption.
      pose proof (proj1 (select_le w (grid n u k) (pick w u k) Hw Hgrid Hlt) ltac:(unfold pick; fold n; lia)) as H.
      destruct H as [H|H]; [assumption|]. exfalso. apply (Htf (pick w u k) k); try assumption. fold n. lia.
    + intros i Hi. rewrite Enth by lia.
      destruct (Rle_dec (psum w (S i)) (grid n u k)) as [|Hno]; [assumption|exfalso].
      pose proof (proj2 (select_le w (grid n u k) i Hw Hgrid ltac:(fold n; lia)) ltac:(lra)) as H.
      unfold pick in Hi. fold n in Hi. lia.
  - destruct (grid_sorted n u Hu1 n 0) as [H|H]; [exact H|lia].
  - rewrite !map_length, !seq_length. lia.
  - lia.
Qed.

(** * Residual resampling *)

Lemma Int_part_floor x : 0 <= x -> (0 <= Int_part x)%Z /\ floor_is x (Z.to_nat (Int_part x)).
Proof.
  intros Hx. destruct (base_Int_part x) as [H1 H2].
  assert (Hz : (0 <= Int_part x)%Z).
  { assert (Hlt : -1 < IZR (Int_part x)) by lra. apply (lt_IZR (-1)) in Hlt. lia. }
  split; [assumption|]. unfold floor_is. rewrite INR_IZR_INZ, Z2Nat.id by assumption. lra.
Qed.

Lemma floor_is_unique x k k' : floor_is x k -> floor_is x k' -> k = k'.
Proof.
  unfold floor_is. intros H1 H2.
  assert (INR k < INR (S k')) by (rewrite S_INR; lra). assert (INR k' < INR (S k)) by (rewrite S_INR; lra).
  apply INR_lt in H, H0. lia.
Qed.

Lemma copies_app i l r : copies i (l ++ r) = (copies i l + copies i r)%nat.
Proof. unfold copies. induction l as [|a l IH]; simpl; [reflexivity|]. destruct (Nat.eq_dec a i); lia. Qed.

Lemma copies_repeat i k n : copies i (repeat k n) = if Nat.eq_dec k i then n else 0%nat.
Proof. unfold copies. induction n; simpl; [now destruct (Nat.eq_dec k i)|]. destruct (Nat.eq_dec k i); lia. Qed.

Lemma repeat_interleave_spec reps : forall start,
  length (repeat_interleave start reps) = fold_right Nat.add 0%nat reps /\
  (forall i, In i (repeat_interleave start reps) -> (start <= i < start + length reps)%nat) /\
  (forall i, copies (start + i) (repeat_interleave start reps) = nth i reps 0%nat).
Proof.
  induction reps as [|k reps IH]; intros start; simpl.
  - split; [reflexivity|]. split; [tauto|]. intros [|]; reflexivity.
  - destruct (IH (S start)) as (H1 & H2 & H3). split; [|split].
    + rewrite app_length, repeat_length. lia.
    + intros i Hi. apply in_app_iff in Hi. destruct Hi as [Hi|Hi]; [apply repeat_spec in Hi; lia|]. apply H2 in Hi. lia.
    + intros i. rewrite copies_app, copies_repeat. destruct i as [|i].
      * rewrite Nat.add_0_r. destruct (Nat.eq_dec start start); [|congruence].
        assert (E : copies start (repeat_interleave (S start) reps) = 0%nat); [|lia].
        unfold copies. apply count_occ_not_In. intros Hin. apply H2 in Hin. lia.
      * destruct (Nat.eq_dec start (start + S i)); [lia|]. replace (start + S i)%nat with (S start + i)%nat by lia.
        rewrite H3. reflexivity.
Qed.

Lemma Rsum_le_INR l : (forall x, In x l -> 0 <= x) ->
  (forall z, In z (map Int_part l) -> (0 <= z)%Z) ->
  IZR (fold_right Z.add 0%Z (map Int_part l)) <= Rsum l /\
  (l <> [] -> Rsum l < IZR (fold_right Z.add 0%Z (map Int_part l)) + INR (length l)).
Proof.
  induction l as [|a l IH]; intros Hn Hz.
  - split; [unfold Rsum; simpl; lra|congruence].
  - destruct (IH (fun x Hx => Hn x (or_intror Hx)) (fun z Hx => Hz z (or_intror Hx))) as [H1 H2].
    destruct (base_Int_part a) as [A1 A2].
    cbn [map fold_right length]. rewrite plus_IZR, S_INR. unfold Rsum in *. cbn [fold_right]. split; [lra|].
    intros _. destruct l as [|b l]; [simpl in *; lra|]. specialize (H2 ltac:(discriminate)). lra.
Qed.

(** [resid]: what the multinomial is asked to draw from. *)
Definition fractional (x : R) : R := x - IZR (Int_part x).

Lemma residual_row_spec draw w : prob_vec w ->
  (forall p m l, draw p m = Ok l -> length l = m /\ forall i, In i l -> (i < length p)%nat /\ exists r, nth i p NaN = Fin r /\ 0 < r) ->
  forall out, residual_row draw w = Ok out ->
  length out = length w /\ (forall i, In i out -> (i < length w)%nat) /\
  (forall i k, (i < length w)%nat -> floor_is (INR (length w) * nth i w 0) k ->
     (k <= copies i out)%nat /\
     ((k < copies i out)%nat -> INR k < INR (length w) * nth i w 0)).
Proof.
  intros Hw Hd out. unfold residual_row. set (n := length w).
  assert (Hne : w <> []) by now apply prob_vec_nonempty.
  assert (Hn : 0 < INR n) by (unfold n; apply lt_0_INR; destruct w; [congruence|simpl; lia]).
  set (mw := map (fun x => INR n * x) w). set (fl := map Int_part mw). set (num := fold_right Z.add 0%Z fl).
  destruct (existsb (fun z => (z <? 0)%Z) fl) eqn:Eneg; [discriminate|].
  destruct (Z.of_nat n <? num)%Z eqn:Ebig; [discriminate|]. apply Z.ltb_ge in Ebig.
  assert (Hfl : forall z, In z fl -> (0 <= z)%Z).
  { intros z Hz. destruct (Z.ltb_spec z 0); [|assumption].
    assert (existsb (fun z => (z <? 0)%Z) fl = true); [|congruence].
    apply existsb_exists. exists z. split; [assumption|]. now apply Z.ltb_lt. }
  assert (Hsum : forall l, (forall z, In z l -> (0 <= z)%Z) ->
      fold_right Nat.add 0%nat (map Z.to_nat l) = Z.to_nat (fold_right Z.add 0%Z l) /\ (0 <= fold_right Z.add 0%Z l)%Z).
  { induction l as [|a l IH]; intros Hl; [simpl; split; [reflexivity|lia]|].
    destruct (IH (fun z Hz => Hl z (or_intror Hz))) as [E1 E2]. pose proof (Hl a (or_introl eq_refl)).
    simpl. rewrite E1. split; [|lia]. now rewrite Z2Nat.inj_add. }
  destruct (Hsum fl Hfl) as [Es Hnum]. fold num in Es, Hnum.
  destruct (repeat_interleave_spec (map Z.to_nat fl) 0) as (L1 & L2 & L3).
  rewrite Es in L1.
  assert (Hlen : length (map Z.to_nat fl) = n) by (unfold fl, mw; now rewrite !map_length).
  rewrite Hlen in L2.
  assert (Hcop : forall i k, (i < n)%nat -> floor_is (INR n * nth i w 0) k ->
     copies i (repeat_interleave 0 (map Z.to_nat fl)) = k /\ nth i mw 0 = INR n * nth i w 0).
  { intros i k Hi Hk. specialize (L3 i). simpl in L3. rewrite L3.
    assert (Hmw : nth i mw 0 = INR n * nth i w 0).
    { unfold mw. rewrite (nth_indep _ 0 (INR n * 0)) by now rewrite map_length.
      now rewrite (map_nth (fun x => INR n * x)). }
    split; [|exact Hmw].
    assert (Hge : 0 <= INR n * nth i w 0).
    { apply Rmult_le_pos; [lra|]. apply (proj1 Hw), nth_In. exact Hi. }
    assert (Enth : nth i (map Z.to_nat fl) 0%nat = Z.to_nat (Int_part (INR n * nth i w 0))).
    { rewrite <- Hmw. unfold fl. rewrite map_map.
      rewrite (nth_indep _ 0%nat (Z.to_nat (Int_part 0))) by (unfold mw; now rewrite !map_length).
      now rewrite (map_nth (fun x => Z.to_nat (Int_part x))). }
    rewrite Enth. eapply floor_is_unique; [apply Int_part_floor; assumption|exact Hk]. }
  destruct (num =? Z.of_nat n)%Z eqn:Eq.
  - intros [= <-]. apply Z.eqb_eq in Eq. split; [rewrite L1, Eq; apply Nat2Z.id|].
    split; [intros i Hi; apply L2 in Hi; lia|].
    intros i k Hi Hk. destruct (Hcop i k Hi Hk) as [-> _]. split; lia.
  - destruct (num =? 0)%Z eqn:E0; [discriminate|]. apply Z.eqb_neq in Eq, E0.
    set (resid := map (fun x => Fin ((x - IZR (Int_part x)) / IZR num)) mw).
    destruct (draw resid (n - Z.to_nat num)%nat) as [extra|e] eqn:Ed; [|discriminate].
    cbn [bind]. intros [= <-]. destruct (Hd _ _ _ Ed) as [D1 D2].
    assert (Hrl : length resid = n) by (unfold resid, mw; now rewrite !map_length).
    split; [rewrite app_length, L1, D1; lia|]. split.
    + intros i Hi. apply in_app_iff in Hi. destruct Hi as [Hi|Hi]; [apply L2 in Hi; lia|].
      apply D2 in Hi. rewrite Hrl in Hi. apply Hi.
    + intros i k Hi Hk. destruct (Hcop i k Hi Hk) as [Hc Hmw]. rewrite copies_app, Hc. split; [lia|].
      intros Hex. assert (Hin : In i extra).
      { destruct (in_dec Nat.eq_dec i extra) as [|Hno]; [assumption|].
        apply (count_occ_not_In Nat.eq_dec) in Hno. unfold copies in Hex. lia. }
      destruct (D2 i Hin) as (_ & r & Er & Hr).
      unfold resid in Er. rewrite (nth_indep _ NaN (Fin ((0 - IZR (Int_part 0)) / IZR num))) in Er by (unfold mw; now rewrite !map_length).
      rewrite (map_nth (fun x => Fin ((x - IZR (Int_part x)) / IZR num))) in Er. injection Er as Er. rewrite Hmw in Er.
      assert (Hge : 0 <= INR n * nth i w 0).
      { apply Rmult_le_pos; [lra|]. apply (proj1 Hw), nth_In. exact Hi. }
      destruct (Int_part_floor _ Hge) as [Hz Hf]. pose proof (floor_is_unique _ _ _ Hf Hk) as Ek.
      rewrite <- Ek, INR_IZR_INZ, Z2Nat.id by assumption.
      assert (Hnp : 0 < IZR num) by (apply IZR_lt; lia).
      rewrite <- Er in Hr. apply Rmult_lt_compat_r with (r := IZR num) in Hr; [|assumption].
      unfold Rdiv in Hr. rewrite Rmult_assoc, Rinv_l, Rmult_1_r, Rmult_0_l in Hr by lra. lra.
Qed.

(** It never fails on a probability vector, provided the multinomial accepts what it is given. *)
Lemma residual_row_total draw w : prob_vec w ->
  (forall p m, (forall x, In x p -> exists r, x = Fin r /\ 0 <= r) -> (exists r, In (Fin r) p /\ 0 < r) -> exists l, draw p m = Ok l) ->
  exists out, residual_row draw w = Ok out.
Proof.
  intros Hw Hd. unfold residual_row. set (n := length w).
  assert (Hne : w <> []) by now apply prob_vec_nonempty.
  assert (Hn : 0 < INR n) by (unfold n; apply lt_0_INR; destruct w; [congruence|simpl; lia]).
  set (mw := map (fun x => INR n * x) w). set (fl := map Int_part mw). set (num := fold_right Z.add 0%Z fl).
  assert (Hmw : forall x, In x mw -> 0 <= x).
  { intros x Hx. apply in_map_iff in Hx. destruct Hx as (y & <- & Hy). apply Rmult_le_pos; [lra|]. now apply (proj1 Hw). }
  assert (Hfl : forall z, In z fl -> (0 <= z)%Z).
  { intros z Hz. apply in_map_iff in Hz. destruct Hz as (y & <- & Hy). apply Int_part_floor. now apply Hmw. }
  assert (E1 : existsb (fun z => (z <? 0)%Z) fl = false).
  { destruct (existsb _ fl) eqn:E; [|reflexivity]. apply existsb_exists in E. destruct E as (z & Hz & E).
    apply Z.ltb_lt in E. apply Hfl in Hz. lia. }
  rewrite E1.
  assert (Hsum : Rsum mw = INR n).
  { unfold mw. rewrite (Rsum_map_scale (fun x => x)), map_id, (proj2 Hw). lra. }
  destruct (Rsum_le_INR mw Hmw Hfl) as [B1 B2]. fold fl in B1, B2. fold num in B1, B2.
  assert (Hmwne : mw <> []) by (unfold mw; intros H; apply map_eq_nil in H; congruence).
  specialize (B2 Hmwne). rewrite Hsum in B1, B2.
  assert (Elen : length mw = n) by (unfold mw; apply map_length). rewrite Elen in B2.
  rewrite INR_IZR_INZ in B1. apply le_IZR in B1.
  assert (Hpos : (0 < num)%Z) by (apply lt_IZR; lra).
  destruct (Z.of_nat n <? num)%Z eqn:E2; [apply Z.ltb_lt in E2; lia|].
  destruct (num =? Z.of_nat n)%Z eqn:E3; [eexists; reflexivity|]. apply Z.eqb_neq in E3.
  destruct (num =? 0)%Z eqn:E4; [apply Z.eqb_eq in E4; lia|].
  assert (Hnp : 0 < IZR num) by (apply IZR_lt; lia).
  assert (Hfr : forall x, In x mw -> 0 <= (x - IZR (Int_part x)) / IZR num).
  { intros x Hx. destruct (base_Int_part x). apply Rmult_le_pos; [lra|]. left. now apply Rinv_0_lt_compat. }
  destruct (Hd (map (fun x => Fin ((x - IZR (Int_part x)) / IZR num)) mw) (n - Z.to_nat num)%nat) as [l ->].
  - intros x Hx. apply in_map_iff in Hx. destruct Hx as (y & <- & Hy). eexists. split; [reflexivity|]. now apply Hfr.
  - (* the fractional parts sum to n - num > 0, so one of them is positive *)
    assert (Hall : forall l, (forall x, In x l -> x - IZR (Int_part x) <= 0) -> Rsum l <= IZR (fold_right Z.add 0%Z (map Int_part l))).
    { induction l as [|a l IH]; intros Hl; [unfold Rsum; simpl; lra|].
      specialize (IH (fun x Hx => Hl x (or_intror Hx))). pose proof (Hl a (or_introl eq_refl)).
      cbn [map fold_right]. rewrite plus_IZR. unfold Rsum in *. cbn [fold_right]. lra. }
    destruct (Exists_dec (fun x => 0 < x - IZR (Int_part x)) mw) as [H|H].
    + intros x. destruct (Rlt_dec 0 (x - IZR (Int_part x))); [now left|now right].
    + apply Exists_exists in H. destruct H as (x & Hx & Hp). exists ((x - IZR (Int_part x)) / IZR num).
      split; [apply in_map_iff; now exists x|]. apply Rmult_lt_0_compat; [assumption|]. now apply Rinv_0_lt_compat.
    + exfalso. assert (Hle : Rsum mw <= IZR num).
      { apply Hall. intros x Hx. destruct (Rlt_dec 0 (x - IZR (Int_part x))); [|lra].
        exfalso. apply H, Exists_exists. now exists x. }
      rewrite Hsum, INR_IZR_INZ in Hle. apply le_IZR in Hle. lia.
  - eexists. reflexivity.
Qed.

(** * The decorator *)

Lemma traverse_ok {A B} (f : A -> res B) (g : A -> B) l : (forall x, In x l -> f x = Ok (g x)) -> traverse f l = Ok (map g l).
Proof.
  induction l as [|a l IH]; intros H; [reflexivity|]. simpl. rewrite (H a) by now left. simpl.
  rewrite IH by (intros; apply H; now right). reflexivity.
Qed.

Lemma traverse_inv {A B} (f : A -> res B) l r : traverse f l = Ok r ->
  length r = length l /\ forall i x, nth_error l i = Some x -> exists y, nth_error r i = Some y /\ f x = Ok y.
Proof.
  revert r; induction l as [|a l IH]; simpl; intros r H.
  - injection H as <-. split; [reflexivity|]. intros [|] x; discriminate.
  - destruct (f a) as [y|] eqn:Ef; [|discriminate]. simpl in H. destruct (traverse f l) as [ys|] eqn:Et; [|discriminate].
    simpl in H. injection H as <-. destruct (IH ys eq_refl) as [H1 H2]. split; [simpl; lia|].
    intros [|i] x Hx; simpl in *; [injection Hx as <-; eauto|]. now apply H2.
Qed.

Lemma col_map_nth {A} (m : mat A) (d : A) j : (j < m_cols m)%nat ->
  nth j (map (col m) (seq 0 (m_cols m))) [] = col m j.
Proof.
  intros Hj. rewrite (nth_indep _ [] (col m 0)) by now rewrite map_length, seq_length.
  rewrite map_nth. now rewrite seq_nth.
Qed.

Lemma col_moveaxis_of_rows {A} (d : A) n (rows : list (list A)) j :
  (forall r, In r rows -> length r = n) -> (j < length rows)%nat ->
  col (moveaxis (of_rows d n rows)) j = nth j rows [].
Proof.
  intros Hr Hj. unfold col, moveaxis, of_rows; simpl.
  assert (Hl : length (nth j rows []) = n) by (apply Hr, nth_In, Hj).
  rewrite <- Hl at 1. clear. set (l := nth j rows []). clearbody l.
  induction l as [|a l IH]; [reflexivity|]. simpl. f_equal. rewrite <- seq_shift, map_map. exact IH.
Qed.

Lemma nth_error_combine_seq {A} (l : list A) i x : nth_error l i = Some x -> nth_error (combine (seq 0 (length l)) l) i = Some (i, x).
Proof.
  assert (G : forall l start i, nth_error l i = Some x -> nth_error (combine (seq start (length l)) l) i = Some ((start + i)%nat, x)).
  { clear. induction l as [|a l IH]; intros start i H; [destruct i; discriminate|]. destruct i as [|i]; simpl in *.
    - injection H as ->. now rewrite Nat.add_0_r.
    - rewrite (IH (S start) i H). do 2 f_equal. lia. }
  apply G.
Qed.
