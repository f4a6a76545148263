(** Properties C11-C17 (pyfilter/resampling.py). *)
From Coq Require Import Reals List Bool Arith ZArith Lra Lia Psatz.
From Verif.Model Require Import Base Xf Tensor Weights Resampling.
From Verif.Spec Require Import WeightsSpec ResamplingSpec.
From Verif.Proofs Require Import WeightsProofs MomentsProofs ResamplingProofs.
Import ListNotations.
Open Scope R_scope.

(** What a one-dimensional call does once its weights are settled. *)
Lemma systematic_1d lowest rand w u : systematic lowest rand (W1 w) true u =
  (let! i := systematic_row w (fun _ => rand 0%nat) in Ok (I1 i)).
Proof. unfold systematic, wrapper, systematic_rows. cbn [bind]. destruct (systematic_row w _); reflexivity. Qed.

Lemma systematic_1d_log lowest rand w u : w <> [] -> exists p, (exists arg, normalize lowest w = Ok (p, arg)) /\ length p = length w /\
  systematic lowest rand (W1 w) false u = systematic lowest rand (W1 p) true u.
Proof.
  intros Hne. destruct (normalize_shape lowest w Hne) as (p & arg & E & Hl & _). exists p. split; [eauto|]. split; [assumption|].
  unfold systematic, wrapper, normalize_arg. rewrite E. reflexivity.
Qed.

(** * C11 *)

Theorem C11_valid_indices : forall lowest (rand : nat -> R) (w : list xf) normalized u,
  w <> [] -> (forall b, 0 <= rand b <= 1) ->
  exists out, systematic lowest rand (W1 w) normalized u = Ok (I1 out) /\
    length out = length w /\ forall i, In i out -> (i < length w)%nat.
Proof.
  intros lowest rand w normalized u Hne Hr.
  assert (G : forall w, w <> [] -> exists out, systematic lowest rand (W1 w) true u = Ok (I1 out) /\
    length out = length w /\ forall i, In i out -> (i < length w)%nat).
  { clear w Hne. intros w Hne. rewrite systematic_1d.
    destruct (systematic_row_valid w (fun _ => rand 0%nat) Hne (fun _ => Hr 0%nat)) as (out & -> & H). exists out. split; [reflexivity|exact H]. }
  destruct normalized; [now apply G|].
  destruct (systematic_1d_log lowest rand w u Hne) as (p & _ & Hl & ->). rewrite <- Hl. apply G.
  intros ->. destruct w; [congruence|discriminate].
Qed.
Print Assumptions C11_valid_indices.

(** Batched weights with given offsets. *)
Theorem C11_valid_indices_batched : forall lowest (rand : nat -> R) (m : mat xf) (u : nat -> nat -> R),
  (0 < m_rows m)%nat -> (forall b k, 0 <= u b k <= 1) ->
  exists out, systematic lowest rand (W2 m) true (Some (UTensor u)) = Ok (I2 out) /\
    m_rows out = m_rows m /\ m_cols out = m_cols m /\
    forall i b, (i < m_rows out)%nat -> (b < m_cols out)%nat -> (m_get out i b < m_rows m)%nat.
Proof.
  intros lowest rand m u Hn Hu. unfold systematic, wrapper, systematic_rows. cbn [bind].
  set (cols := map (col m) (seq 0 (m_cols m))).
  assert (Hlen : forall j, length (col m j) = m_rows m) by (intros; unfold col; now rewrite map_length, seq_length).
  assert (Hv : forall c b, In c cols -> exists out, systematic_row c (u b) = Ok out /\ length out = m_rows m /\ forall i, In i out -> (i < m_rows m)%nat).
  { intros c b Hc. apply in_map_iff in Hc. destruct Hc as (j & <- & _).
    destruct (systematic_row_valid (col m j) (u b)) as (out & E & H1 & H2); [|apply Hu|].
    - intros E. specialize (Hlen j). rewrite E in Hlen. simpl in Hlen. lia.
    - rewrite Hlen in *. eauto. }
  set (f := fun bw : nat * list xf => systematic_row (snd bw) (u (fst bw))).
  destruct (traverse f (combine (seq 0 (length cols)) cols)) as [r|e] eqn:Et.
  2:{ exfalso.
      set (g := fun bw : nat * list xf => match f bw with Ok o => o | Raise _ => [] end).
      rewrite (traverse_ok f g) in Et; [discriminate|].
      intros [b c] Hin. unfold g, f; simpl. destruct (Hv c b (in_combine_r _ _ _ _ Hin)) as (o & -> & _). reflexivity. }
  destruct (traverse_inv _ _ _ Et) as [L1 L2].
  assert (Hcl : length cols = m_cols m) by (unfold cols; now rewrite map_length, seq_length).
  rewrite combine_length, seq_length, Nat.min_id, Hcl in L1.
  eexists. split; [reflexivity|]. cbn [m_rows m_cols moveaxis of_rows]. split; [reflexivity|]. split; [assumption|].
  intros i b Hi Hb. simpl m_get. rewrite L1 in Hb.
  assert (Ec : nth_error cols b = Some (col m b)).
  { unfold cols. rewrite nth_error_map. rewrite (nth_error_nth' _ 0%nat) by now rewrite seq_length. now rewrite seq_nth. }
  destruct (L2 b _ (nth_error_combine_seq cols b _ Ec)) as (o & Eo & Ef).
  destruct (Hv (col m b) b (nth_error_In _ _ Ec)) as (o' & Eo' & H1 & H2).
  unfold f in Ef; simpl in Ef. assert (o' = o) by congruence. subst o'.
  rewrite (nth_error_nth _ _ _ Eo). apply H2, nth_In. lia.
Qed.
Print Assumptions C11_valid_indices_batched.

(** Sorted, for probability vectors. *)
Theorem C11_sorted : forall lowest rand (w : list R) u, prob_vec w -> (forall b, 0 <= rand b <= 1) ->
  exists out, systematic lowest rand (W1 (map Fin w)) true u = Ok (I1 out) /\
    forall a b x y, (a < b)%nat -> nth_error out a = Some x -> nth_error out b = Some y -> (x <= y)%nat.
Proof.
  intros lowest rand w u Hw Hr. rewrite systematic_1d.
  rewrite systematic_row_fin by now apply prob_vec_nonempty. simpl. eexists. split; [reflexivity|].
  intros a b x y Hab Hx Hy.
  assert (Hb : (b < length w)%nat).
  { assert (nth_error (map (pick w (fun _ => rand 0%nat)) (seq 0 (length w))) b <> None) by congruence.
    apply nth_error_Some in H. now rewrite map_length, seq_length in H. }
  rewrite nth_error_map in Hx, Hy.
  rewrite (nth_error_nth' _ 0%nat) in Hx by (rewrite seq_length; lia).
  rewrite (nth_error_nth' _ 0%nat) in Hy by (rewrite seq_length; lia).
  rewrite seq_nth in Hx, Hy by lia. injection Hx as <-. injection Hy as <-. simpl.
  apply pick_mono; auto.
Qed.
Print Assumptions C11_sorted.

Example C11_nonvacuous : [NaN; PInf; Fin 3] <> [] /\ prob_vec [/4; /4; /2].
Proof.
  split; [discriminate|]. split; [|unfold Rsum; simpl; lra].
  simpl; intros x H; repeat (destruct H as [<-|H]; [lra|]); contradiction.
Qed.

(** * C12 *)

Theorem C12_proportional_copies : forall lowest rand (w : list R) u i,
  prob_vec w -> 0 <= rand 0%nat < 1 -> (i < length w)%nat ->
  exists out, systematic lowest rand (W1 (map Fin w)) true u = Ok (I1 out) /\
    within_one (copies i out) (INR (length w) * nth i w 0) /\
    (0 < rand 0%nat -> strictly_within_one (copies i out) (INR (length w) * nth i w 0)).
Proof.
  intros lowest rand w u i Hw Hr Hi. rewrite systematic_1d, systematic_row_fin by now apply prob_vec_nonempty.
  simpl. eexists. split; [reflexivity|]. now apply copies_bounds.
Qed.
Print Assumptions C12_proportional_copies.

Example C12_nonvacuous : prob_vec [/4; 3/4] /\ INR 2 * nth 1 [/4; 3/4] 0 = 3/2.
Proof.
  split; [|simpl; lra]. split; [|unfold Rsum; simpl; lra].
  simpl; intros x H; repeat (destruct H as [<-|H]; [lra|]); contradiction.
Qed.

(** * C13 *)

Definition zero_weight_never_selected : Prop := forall lowest rand (w : list R) u i out,
  prob_vec w -> 0 <= rand 0%nat < 1 -> (i < length w)%nat -> nth i w 0 = 0 ->
  systematic lowest rand (W1 (map Fin w)) true u = Ok (I1 out) -> ~ In i out.

(** False: a zero-weight first particle is selected when the uniform draw is exactly 0. *)
Theorem C13_zero_weight_never_selected_refuted : ~ zero_weight_never_selected.
Proof.
  intros H.
  assert (Hw : prob_vec [0; 1]) by (split; [simpl; intros x [<-|[<-|[]]]; lra|unfold Rsum; simpl; lra]).
  refine (H 0 (fun _ => 0) [0; 1] None 0%nat _ Hw _ _ eq_refl _ _); [lra|simpl; lia| |].
  - rewrite systematic_1d, systematic_row_fin by discriminate. reflexivity.
  - simpl. left. assert (Hle : (pick [0%R; 1%R] (fun _ => 0%R) 0 <= 0)%nat).
    { apply pick_le; simpl; try lia; try assumption; try lra. unfold psum, Rsum; simpl. lra. }
    lia.
Qed.
Print Assumptions C13_zero_weight_never_selected_refuted.

(** True for every particle but the first, and for the first as soon as the draw is positive. *)
Theorem C13_zero_weight_partial : forall lowest rand (w : list R) u i out,
  prob_vec w -> 0 <= rand 0%nat < 1 -> (i < length w)%nat -> nth i w 0 = 0 ->
  (0 < i)%nat \/ 0 < rand 0%nat ->
  systematic lowest rand (W1 (map Fin w)) true u = Ok (I1 out) -> ~ In i out.
Proof.
  intros lowest rand w u i out Hw Hr Hi Hz Hc.
  rewrite systematic_1d, systematic_row_fin by now apply prob_vec_nonempty. simpl. intros [= <-] Hin.
  apply in_map_iff in Hin. destruct Hin as (k & Hk & Hin). apply in_seq in Hin.
  revert Hk. apply pick_zero; try assumption; try lia; [intros; lra|].
  destruct Hc as [Hc|Hc]; [now left|right]. pose proof (pos_INR k). lra.
Qed.
Print Assumptions C13_zero_weight_partial.

Example C13_nonvacuous : prob_vec [/2; 0; /2] /\ nth 1 [/2; 0; /2] 0 = 0.
Proof.
  split; [|reflexivity]. split; [|unfold Rsum; simpl; lra].
  simpl; intros x H; repeat (destruct H as [<-|H]; [lra|]); contradiction.
Qed.

(** * C14 *)

(** For one-dimensional weights a given offset has no effect whatsoever. *)
Theorem C14_offset_ignored_1d : forall lowest rand (w : list xf) normalized u,
  systematic lowest rand (W1 w) normalized (Some u) = systematic lowest rand (W1 w) normalized None.
Proof.
  intros lowest rand w normalized u. unfold systematic, wrapper.
  destruct normalized; simpl; [reflexivity|]. destruct (normalize lowest w) as [[p a]|e]; reflexivity.
Qed.
Print Assumptions C14_offset_ignored_1d.

(** So the claim fails: draws 0, offset 3/4 given, and the answer is that of 0. *)
Theorem C14_offset_honoured_1d_refuted : exists lowest rand w u, 0 <= u < 1 /\
  systematic lowest rand (W1 w) true (Some (UTensor (fun _ _ => u))) <>
  (let! i := systematic_row w (fun _ => u) in Ok (I1 i)).
Proof.
  exists 0, (fun _ => 0), (map Fin [3/4; 1/4]), (3/4). split; [lra|].
  rewrite systematic_1d, !systematic_row_fin by discriminate. simpl. intros [= H0 H1].
  assert (Hw : prob_vec [3/4; 1/4]) by (split; [simpl; intros x [<-|[<-|[]]]; lra|unfold Rsum; simpl; lra]).
  assert (A : (pick [(3/4)%R; (1/4)%R] (fun _ => 0%R) 1 <= 0)%nat).
  { apply pick_le; simpl; try lia; try assumption; try lra. unfold psum, Rsum; simpl. lra. }
  assert (B : ~ (pick [(3/4)%R; (1/4)%R] (fun _ => (3/4)%R) 1 <= 0)%nat).
  { intros B. apply pick_le in B; simpl in *; try lia; try assumption; try lra. unfold psum, Rsum in B; simpl in B. lra. }
  lia.
Qed.
Print Assumptions C14_offset_honoured_1d_refuted.

(** For batched weights a tensor offset decides everything: column [b] is the one-filter algorithm with the
    offsets of row [b], whatever the generator would have drawn.  A python float is refused. *)
Theorem C14_offset_honoured_batched_partial : forall lowest (m : mat xf) (u : nat -> nat -> R),
  (0 < m_rows m)%nat -> (forall b k, 0 <= u b k <= 1) ->
  exists out, (forall rand, systematic lowest rand (W2 m) true (Some (UTensor u)) = Ok (I2 out)) /\
    (forall b, (b < m_cols m)%nat -> systematic_row (col m b) (u b) = Ok (col out b)) /\
    (forall rand x, systematic lowest rand (W2 m) true (Some (UFloat x)) = Raise AttributeError).
Proof.
  intros lowest m u Hn Hu.
  destruct (C11_valid_indices_batched lowest (fun _ => 0) m u Hn Hu) as (out & E & _). exists out.
  split; [intros rand; exact E|]. split; [|reflexivity].
  unfold systematic, wrapper, systematic_rows in E. cbn [bind] in E.
  set (cols := map (col m) (seq 0 (m_cols m))) in E.
  destruct (traverse _ (combine (seq 0 (length cols)) cols)) as [r|] eqn:Et; [|discriminate].
  simpl in E. injection E as <-. destruct (traverse_inv _ _ _ Et) as [L1 L2].
  assert (Hcl : length cols = m_cols m) by (unfold cols; now rewrite map_length, seq_length).
  rewrite combine_length, seq_length, Nat.min_id, Hcl in L1.
  assert (Hlen : forall j, length (col m j) = m_rows m) by (intros; unfold col; now rewrite map_length, seq_length).
  assert (Ecol : forall b, (b < m_cols m)%nat -> nth_error cols b = Some (col m b)).
  { intros b Hb. unfold cols. rewrite nth_error_map. rewrite (nth_error_nth' _ 0%nat) by now rewrite seq_length. now rewrite seq_nth. }
  assert (Hrow : forall b, (b < m_cols m)%nat -> exists o, nth_error r b = Some o /\ systematic_row (col m b) (u b) = Ok o).
  { intros b Hb. destruct (L2 b _ (nth_error_combine_seq cols b _ (Ecol b Hb))) as (o & Eo & Ef). eauto. }
  intros b Hb. rewrite col_moveaxis_of_rows.
  - destruct (Hrow b Hb) as (o & Eo & Ef). now rewrite (nth_error_nth _ _ _ Eo).
  - intros o Ho. apply In_nth_error in Ho. destruct Ho as (b' & Eb').
    assert (Hb' : (b' < m_cols m)%nat) by (rewrite <- L1; apply nth_error_Some; congruence).
    destruct (Hrow b' Hb') as (o' & Eo' & Ef). assert (o' = o) by congruence. subst o'.
    destruct (systematic_row_valid (col m b') (u b')) as (o' & E1 & E2 & _); [|apply Hu|].
    + intros Ee. specialize (Hlen b'). rewrite Ee in Hlen. simpl in Hlen. lia.
    + assert (o' = o) by congruence. subst. now rewrite E2, Hlen.
  - now rewrite L1.
Qed.
Print Assumptions C14_offset_honoured_batched_partial.

Example C14_nonvacuous : (0 < m_rows (Mat 3 2 (fun _ _ => Fin (/3))))%nat /\ forall b k : nat, 0 <= (fun _ _ : nat => /2) b k <= 1.
Proof. split; [simpl; lia|]. intros; simpl; lra. Qed.

(** * C15 *)

(** What torch.multinomial promises: as many draws as asked, each on an entry of positive probability. *)
Definition multinomial_contract (draw : list xf -> nat -> res (list nat)) : Prop :=
  (forall p m l, draw p m = Ok l ->
     length l = m /\ forall i, In i l -> (i < length p)%nat /\ exists r, nth i p NaN = Fin r /\ 0 < r) /\
  (forall p m, (forall x, In x p -> exists r, x = Fin r /\ 0 <= r) -> (exists r, In (Fin r) p /\ 0 < r) ->
     exists l, draw p m = Ok l).

Lemma finite_row_fin w : finite_row (map Fin w) = Some w.
Proof. induction w as [|a w IH]; simpl; [reflexivity|]. now rewrite IH. Qed.

Theorem C15_residual : forall lowest draw (w : list R), multinomial_contract draw -> prob_vec w ->
  exists out, residual lowest draw (W1 (map Fin w)) true = Ok (I1 out) /\
    length out = length w /\ (forall i, In i out -> (i < length w)%nat) /\
    forall i k, (i < length w)%nat -> floor_is (INR (length w) * nth i w 0) k ->
      (k <= copies i out)%nat /\ ((k < copies i out)%nat -> INR k < INR (length w) * nth i w 0).
Proof.
  intros lowest draw w [D1 D2] Hw. destruct (residual_row_total draw w Hw D2) as [out E]. exists out.
  split; [|now apply (residual_row_spec draw w Hw D1 out E)].
  unfold residual, wrapper, residual_rows. cbn [bind]. rewrite finite_row_fin, E. reflexivity.
Qed.
Print Assumptions C15_residual.

(** Batched weights are refused, whatever they contain. *)
Theorem C15_residual_batched_refused : forall lowest draw (m : mat xf), (0 < m_rows m)%nat ->
  forall normalized, residual lowest draw (W2 m) normalized = Raise NotImplementedError.
Proof.
  intros lowest draw m Hn [|]; [reflexivity|]. unfold residual, wrapper, normalize_arg.
  set (f := fun j => let! (p, _) := normalize lowest (col m j) in Ok p).
  rewrite (traverse_ok f (fun j => match f j with Ok p => p | Raise _ => [] end)); [reflexivity|].
  intros j _. unfold f. destruct (normalize_shape lowest (col m j)) as (o & a & -> & _); [|reflexivity].
  unfold col. destruct (m_rows m); [lia|discriminate].
Qed.
Print Assumptions C15_residual_batched_refused.

(** A multinomial meeting the contract: always draw the first entry with positive probability. *)
Fixpoint first_positive (i : nat) (p : list xf) : option nat :=
  match p with
  | [] => None
  | Fin r :: t => if Rlt_dec 0 r then Some i else first_positive (S i) t
  | _ :: t => first_positive (S i) t
  end.
Definition draw_first (p : list xf) (m : nat) : res (list nat) :=
  match first_positive 0 p with Some i => Ok (repeat i m) | None => Raise RuntimeError end.

Example C15_nonvacuous : multinomial_contract draw_first /\ prob_vec [/2; /4; /4] /\
  floor_is (INR 3 * nth 0 [/2; /4; /4] 0) 1.
Proof.
  assert (F : forall p s i, first_positive s p = Some i -> (s <= i)%nat /\ (i - s < length p)%nat /\ exists r, nth (i - s) p NaN = Fin r /\ 0 < r).
  { induction p as [|x p IH]; intros s i H; [discriminate|].
    assert (Hrec : first_positive (S s) p = Some i -> (s <= i)%nat /\ (i - s < length (x :: p))%nat /\ exists r, nth (i - s) (x :: p) NaN = Fin r /\ 0 < r).
    { intros H'. apply IH in H'. destruct H' as (H1 & H2 & H3). replace (i - s)%nat with (S (i - S s)) by lia. simpl. repeat split; try lia. exact H3. }
    destruct x as [r| | |]; simpl in H; try (now apply Hrec).
    destruct (Rlt_dec 0 r); [|now apply Hrec]. injection H as <-. rewrite Nat.sub_diag. simpl. repeat split; try lia. eauto. }
  assert (G : forall p s, (exists r, In (Fin r) p /\ 0 < r) -> exists i, first_positive s p = Some i).
  { induction p as [|x p IH]; intros s (r & Hin & Hr); [contradiction|]. destruct Hin as [->|Hin].
    - simpl. destruct (Rlt_dec 0 r); [eauto|contradiction].
    - destruct (IH (S s)) as [i Hi]; [eauto|]. simpl. destruct x as [q| | |]; eauto. destruct (Rlt_dec 0 q); eauto. }
  split; [split|split].
  - intros p m l. unfold draw_first. destruct (first_positive 0 p) as [i|] eqn:E; [|discriminate].
    intros [= <-]. split; [apply repeat_length|]. intros j Hj. apply repeat_spec in Hj. subst j.
    apply F in E. rewrite Nat.sub_0_r in E. tauto.
  - intros p m _ Hex. unfold draw_first. destruct (G p 0%nat Hex) as [i ->]. eauto.
  - split; [|unfold Rsum; simpl; lra]. simpl; intros x H; repeat (destruct H as [<-|H]; [lra|]); contradiction.
  - unfold floor_is; simpl; lra.
Qed.

(** * C16 *)

Theorem C16_two_pointer_reference : forall (w : list R) (u : nat -> R),
  prob_vec w -> (forall k, 0 <= u k < 1) -> tie_free w u ->
  exists out, systematic_row (map Fin w) u = Ok out /\ filterpy_systematic w u = Some out.
Proof.
  intros w u Hw Hu Ht. rewrite systematic_row_fin by now apply prob_vec_nonempty.
  eexists. split; [reflexivity|]. now apply matches_two_pointer.
Qed.
Print Assumptions C16_two_pointer_reference.

(** The tie-freeness is needed: at a tie the reference moves on, the library does not. *)
Theorem C16_ties_differ_refuted : exists (w : list R) (u : nat -> R), prob_vec w /\ (forall k, 0 <= u k < 1) /\
  exists out, systematic_row (map Fin w) u = Ok out /\ filterpy_systematic w u <> Some out.
Proof.
  exists [/2; /2], (fun _ => 0). 
  assert (Hw : prob_vec [/2; /2]) by (split; [simpl; intros x [<-|[<-|[]]]; lra|unfold Rsum; simpl; lra]).
  split; [exact Hw|]. split; [intros; lra|]. rewrite systematic_row_fin by discriminate. eexists. split; [reflexivity|].
  unfold filterpy_systematic. simpl. unfold psum, Rsum; simpl.
  destruct (Rlt_dec ((0 + 0) / (1 + 1)) (/ 2 + 0)); [|lra].
  destruct (Rlt_dec ((0 + 1) / (1 + 1)) (/ 2 + 0)); [lra|].
  destruct (Rlt_dec ((0 + 1) / (1 + 1)) (/ 2 + (/ 2 + 0))); [|lra].
  intros [= H0 H1].
  assert (A : (pick [(/2)%R; (/2)%R] (fun _ => 0%R) 1 <= 0)%nat).
  { apply pick_le; simpl; try lia; try assumption; try lra. unfold psum, Rsum; simpl. lra. }
  lia.
Qed.
Print Assumptions C16_ties_differ_refuted.

Example C16_nonvacuous : tie_free [/2; /2] (fun _ => /2).
Proof.
  intros i k Hi Hk. simpl in *. destruct i as [|[|]]; [| |lia]; destruct k as [|[|]]; try lia; unfold psum, Rsum; simpl; lra.
Qed.

(** * C17 *)

(** Normalised or not, offsets drawn: column [b] is the one-filter call on column [b] with draw [b]. *)
Theorem C17_batch_is_columnwise : forall lowest rand (m : mat xf) normalized,
  (0 < m_rows m)%nat -> (forall b, 0 <= rand b <= 1) ->
  exists out, systematic lowest rand (W2 m) normalized None = Ok (I2 out) /\
    m_rows out = m_rows m /\ m_cols out = m_cols m /\
    forall b, (b < m_cols m)%nat ->
      systematic lowest (fun _ => rand b) (W1 (col m b)) normalized None = Ok (I1 (col out b)).
Proof.
  intros lowest rand m normalized Hn Hr.
  assert (G : forall m, (0 < m_rows m)%nat -> exists out, systematic lowest rand (W2 m) true None = Ok (I2 out) /\
    m_rows out = m_rows m /\ m_cols out = m_cols m /\
    forall b, (b < m_cols m)%nat -> systematic lowest (fun _ => rand b) (W1 (col m b)) true None = Ok (I1 (col out b))).
  { clear m Hn. intros m Hn.
    destruct (C14_offset_honoured_batched_partial lowest m (fun b _ => rand b) Hn (fun b _ => Hr b)) as (out & E & H & _).
    destruct (C11_valid_indices_batched lowest rand m (fun b _ => rand b) Hn (fun b _ => Hr b)) as (out' & E' & Hrows & Hcols & _).
    assert (out' = out) by (specialize (E rand); congruence). subst out'. exists out.
    split; [exact (E rand)|]. split; [assumption|]. split; [assumption|].
    intros b Hb. rewrite systematic_1d, (H b Hb). reflexivity. }
  destruct normalized; [now apply G|].
  set (f := fun j => let! (p, _) := normalize lowest (col m j) in Ok p).
  set (g := fun j => match f j with Ok p => p | Raise _ => [] end).
  assert (Hlen : forall j, length (col m j) = m_rows m) by (intros; unfold col; now rewrite map_length, seq_length).
  assert (Hne : forall j, col m j <> []) by (intros j E; specialize (Hlen j); rewrite E in Hlen; simpl in Hlen; lia).
  assert (Hf : forall j, exists o, f j = Ok o /\ length o = m_rows m /\ exists a, normalize lowest (col m j) = Ok (o, a)).
  { intros j. unfold f. destruct (normalize_shape lowest (col m j) (Hne j)) as (o & a & -> & Hl & _). rewrite Hlen in Hl. simpl. eauto. }
  set (m' := moveaxis (of_rows NaN (m_rows m) (map g (seq 0 (m_cols m))))).
  assert (Em : systematic lowest rand (W2 m) false None = systematic lowest rand (W2 m') true None).
  { unfold systematic, wrapper, normalize_arg. fold f. rewrite (traverse_ok f g); [reflexivity|].
    intros j _. unfold g. destruct (Hf j) as (o & -> & _). reflexivity. }
  rewrite Em. destruct (G m') as (out & E & Hrows & Hcols & H); [exact Hn|].
  assert (Hc' : m_cols m' = m_cols m) by (unfold m'; simpl; now rewrite map_length, seq_length).
  exists out. split; [exact E|]. split; [exact Hrows|]. split; [now rewrite Hcols|].
  intros b Hb. rewrite <- H by now rewrite Hc'.
  destruct (Hf b) as (o & Ef & Hl & a & En).
  assert (Ec : col m' b = o).
  { unfold m'. rewrite col_moveaxis_of_rows.
    - rewrite (nth_indep _ [] (g 0%nat)) by now rewrite map_length, seq_length. rewrite map_nth, seq_nth by assumption.
      simpl. unfold g. now rewrite Ef.
    - intros r Hrr. apply in_map_iff in Hrr. destruct Hrr as (j & <- & _). unfold g. destruct (Hf j) as (o' & -> & Hl' & _). exact Hl'.
    - now rewrite map_length, seq_length. }
  rewrite Ec. unfold systematic, wrapper, normalize_arg. rewrite En. reflexivity.
Qed.
Print Assumptions C17_batch_is_columnwise.

Example C17_nonvacuous : (0 < m_rows (Mat 4 3 (fun i j => if (i =? j)%nat then NaN else Fin 1)))%nat /\ forall b : nat, 0 <= (fun _ => /3) b <= 1.
Proof. split; [simpl; lia|]. intros; simpl; lra. Qed.
