(** Properties C59, C77 (pyfilter/inference/sequential/threshold.py). *)
From Coq Require Import Reals Lra Lia List ZArith Permutation Sorted.
From Verif.Model Require Import Threshold.
From Verif.Spec Require Import ThresholdSpec.
Import ListNotations.
Local Open Scope R_scope.

(** * C59 *)
(** No policy goes below its floor. *)
Theorem C59_floor : forall t i, lowest_threshold t <= get_threshold t i.
Proof. intros. unfold get_threshold. apply Rmax_r. Qed.
Print Assumptions C59_floor.

Theorem C59_constant : forall r i, get_threshold (constant_threshold r) i = r.
Proof. intros. unfold get_threshold, constant_threshold. cbn. apply Rmax_left. lra. Qed.
Print Assumptions C59_constant.

(** The decaying policy starts at the start value, halves with every half life until the floor and never rises. *)
Theorem C59_decaying : forall low start h t, (0 < h)%nat -> 0 <= start -> decaying_threshold low start (Z.of_nat h) = Some t ->
  lowest_threshold t = low /\
  get_threshold t 0 = Rmax start low /\
  (forall n, get_threshold t (n * h) = Rmax (start / 2 ^ n) low) /\
  (forall i j, (i <= j)%nat -> get_threshold t j <= get_threshold t i) /\
  (forall i, low <= get_threshold t i <= Rmax start low).
Proof.
  intros low start h t H S E. unfold decaying_threshold in E. destruct (Z.eqb_spec (Z.of_nat h) 0) as [Z|_]; [lia|]. injection E as <-.
  assert (P : 0 < INR h) by now apply lt_0_INR. assert (HI : IZR (Z.of_nat h) = INR h) by (symmetry; apply INR_IZR_INZ).
  set (a := ln 2 / IZR (Z.of_nat h)). assert (A : 0 < a).
  { unfold a. rewrite HI. apply Rdiv_lt_0_compat; [|exact P]. rewrite <- ln_1. apply ln_increasing; lra. }
  assert (M : forall i j, (i <= j)%nat -> get_threshold (Decaying low start a) j <= get_threshold (Decaying low start a) i).
  { intros i j L. unfold get_threshold. cbn. apply Rle_max_compat_r. apply Rmult_le_compat_r; [exact S|]. apply le_INR in L.
    destruct (Rle_lt_or_eq_dec _ _ L) as [L'|L']; [left; apply exp_increasing; nra|rewrite L'; lra]. }
  assert (Z0 : get_threshold (Decaying low start a) 0 = Rmax start low) by (unfold get_threshold; cbn; rewrite Rmult_0_r, exp_0, Rmult_1_l; reflexivity).
  split; [reflexivity|]. split; [exact Z0|]. split; [|split; [exact M|]].
  - intros n. unfold get_threshold. cbn. f_equal. replace (- a * INR (n * h)) with (- (INR n * ln 2)).
    2:{ rewrite mult_INR. unfold a. rewrite HI. field. lra. }
    rewrite exp_Ropp, <- ln_pow, exp_ln by (try apply pow_lt; lra). unfold Rdiv. ring.
  - intros i. split; [apply (C59_floor (Decaying low start a))|]. rewrite <- Z0. apply M. lia.
Qed.
Print Assumptions C59_decaying.

Lemma insert_perm u l : Permutation (insert_by_key u l) (u :: l).
Proof. induction l as [|v l IH]; cbn; [reflexivity|]. destruct Z.leb; [reflexivity|]. rewrite IH. apply perm_swap. Qed.
Lemma sorted_perm l : Permutation (sorted_by_key l) l.
Proof. induction l as [|u l IH]; cbn; [reflexivity|]. now rewrite insert_perm, IH. Qed.
Definition key_le (u v : Z * R) : Prop := (fst u <= fst v)%Z.
Lemma insert_sorted u l : StronglySorted key_le l -> StronglySorted key_le (insert_by_key u l).
Proof.
  induction 1 as [|v l S IH F]; cbn; [repeat constructor|]. destruct (Z.leb_spec (fst u) (fst v)).
  - constructor; [now constructor|]. constructor; [exact H|]. eapply Forall_impl; [|exact F]. unfold key_le. intros. lia.
  - constructor; [exact IH|]. apply Forall_forall. intros x I. apply (Permutation_in _ (insert_perm u l)) in I. destruct I as [<-|I]; [unfold key_le; lia|].
    rewrite Forall_forall in F. now apply F.
Qed.
Lemma sorted_sorted l : StronglySorted key_le (sorted_by_key l).
Proof. induction l; cbn; [constructor|now apply insert_sorted]. Qed.
Lemma next_spec i d l : StronglySorted key_le l -> (covers l i (next_or (Z.of_nat i) d l)) \/ (all_ended l i /\ next_or (Z.of_nat i) d l = d).
Proof.
  induction 1 as [|[k v] l S IH F]; cbn; [right; split; [intros ? ? []|reflexivity]|]. destruct (Z.leb_spec (Z.of_nat i) k) as [L|L].
  - left. exists k. split; [now left|]. split; [exact L|]. intros k' v' [E|I] L'; [injection E; lia|]. rewrite Forall_forall in F. apply (F (k', v') I).
  - destruct IH as [(k1 & I & L1 & M)|[N E]]; [left; exists k1; split; [now right|]; split; [exact L1|]|right; split; [|exact E]].
    + intros k' v' [E|I'] L'; [injection E; lia|]. now apply (M k' v').
    + intros k' v' [E'|I']; [injection E'; lia|]. now apply (N k' v').
Qed.
Lemma covers_unique l i v v' : dictionary l -> covers l i v -> covers l i v' -> v = v'.
Proof.
  intros D (k & I & L & M) (k' & I' & L' & M'). assert (k = k') by (apply Z.le_antisymm; eauto). subst k'. clear - D I I'. unfold dictionary in D.
  induction l as [|[a b] l IH]; [contradiction|]. cbn in D. inversion D as [|? ? N D']; subst. destruct I as [E|I], I' as [E'|I'].
  - congruence.
  - injection E; intros; subst. contradiction N. now apply (in_map fst) in I'.
  - injection E'; intros; subst. contradiction N. now apply (in_map fst) in I.
  - now apply IH.
Qed.
Lemma covers_perm l l' i v : Permutation l l' -> covers l i v -> covers l' i v.
Proof.
  intros P (k & I & L & M). exists k. split; [now apply (Permutation_in _ P)|]. split; [exact L|]. intros k' v' I'. apply (M k' v'). now apply (Permutation_in _ (Permutation_sym P)).
Qed.

(** The interval policy: the entry with the smallest end not yet passed, whatever the order of the dictionary; the
    ending threshold once all have ended; never below the ending threshold. *)
Theorem C59_interval : forall l ending i, dictionary l ->
  (forall v, covers l i v -> get_threshold (interval_threshold l ending) i = Rmax v ending) /\
  (all_ended l i -> get_threshold (interval_threshold l ending) i = ending) /\
  ((exists v, covers l i v) \/ all_ended l i).
Proof.
  intros l ending i D. unfold get_threshold, interval_threshold. cbn [mutate_thresh lowest_threshold].
  destruct (next_spec i ending (sorted_by_key l) (sorted_sorted l)) as [C|[N E]].
  - apply (covers_perm _ l) in C; [|apply sorted_perm]. split; [intros v C'; now rewrite (covers_unique l i _ v D C C')|]. split; [|eauto].
    intros A. destruct C as (k & I & L & _). specialize (A k _ I). lia.
  - assert (A : all_ended l i) by (intros k v I; apply (N k v), (Permutation_in _ (Permutation_sym (sorted_perm l))), I).
    split; [|split; [|now right]].
    + intros v (k & I & L & _). specialize (A k v I). lia.
    + intros _. rewrite E. apply Rmax_left. lra.
Qed.
Print Assumptions C59_interval.
Theorem C59_interval_order : forall l l' ending i, dictionary l -> Permutation l l' ->
  get_threshold (interval_threshold l ending) i = get_threshold (interval_threshold l' ending) i.
Proof.
  intros l l' ending i D P. assert (D' : dictionary l') by (unfold dictionary; now rewrite <- (Permutation_map fst P)).
  destruct (C59_interval l ending i D) as (A1 & A2 & [[v C]|A3]); destruct (C59_interval l' ending i D') as (B1 & B2 & _).
  - rewrite (A1 v C). symmetry. apply B1. now apply (covers_perm l).
  - rewrite (A2 A3). symmetry. apply B2. intros k v I. apply (A3 k v), (Permutation_in _ (Permutation_sym P)), I.
Qed.
Print Assumptions C59_interval_order.

Example C59_nonvacuous : let l := [(200%Z, 3 / 10); (100%Z, 1 / 2)] in
  dictionary l /\ covers l 100 (1 / 2) /\ covers l 101 (3 / 10) /\ all_ended l 201 /\ (exists t, decaying_threshold (1 / 10) (1 / 2) 1000 = Some t).
Proof.
  intros l. repeat split.
  - unfold dictionary. cbn. repeat constructor; cbn; intuition lia.
  - exists 100%Z. split; [right; now left|]. split; [reflexivity|]. intros k v [E|[E|[]]] _; injection E; intros; subst; lia.
  - exists 200%Z. split; [now left|]. split; [cbn; lia|]. intros k v [E|[E|[]]] H; injection E; intros; subst; lia.
  - intros k v [E|[E|[]]]; injection E; intros; subst; reflexivity.
  - eexists. reflexivity.
Qed.

(** * C77: thresholds rising over time cannot be configured *)
(** An interval's threshold below the ending threshold is never used. *)
Theorem C77_refuted : forall l ending i v, dictionary l -> covers l i v -> v < ending -> get_threshold (interval_threshold l ending) i = ending /\ ending <> v.
Proof. intros l ending i v D C L. split; [|lra]. rewrite (proj1 (C59_interval l ending i D) v C). apply Rmax_right. lra. Qed.
Print Assumptions C77_refuted.
(** With the ending threshold below all others every iteration gets the threshold configured for it. *)
Theorem C77_partial : forall l ending i v, dictionary l -> covers l i v -> ending <= v -> get_threshold (interval_threshold l ending) i = v.
Proof. intros l ending i v D C L. rewrite (proj1 (C59_interval l ending i D) v C). now apply Rmax_left. Qed.
Print Assumptions C77_partial.
Example C77_nonvacuous : dictionary [(100%Z, 1 / 10)] /\ covers [(100%Z, 1 / 10)] 7 (1 / 10) /\ 1 / 10 < 1 / 2 /\ 1 / 20 <= 1 / 10.
Proof.
  split; [repeat constructor; intros []|]. split; [|lra]. exists 100%Z. split; [now left|]. split; [cbn; lia|]. intros k v [E|[]] _; injection E; lia.
Qed.
