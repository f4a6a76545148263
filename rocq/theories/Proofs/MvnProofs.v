(** Cholesky factors, and normal distributions fitted to weighted particles. *)
From Coq Require Import Reals List Bool Arith Lia Lra.
From Verif.Model Require Import Base Mvn.
From Verif.Spec Require Import WeightsSpec UnbiasedSpec ConvergeSpec MvnSpec.
From Verif.Proofs Require Import UnbiasedProofs BackwardProofs CompleteProofs.
Import ListNotations.
Local Open Scope nat_scope.

Lemma sb_first n f : sum_below (S n) f = (f 0%nat + sum_below n (fun i => f (S i)))%R.
Proof. unfold sum_below. cbn [seq map]. rewrite <- seq_shift, map_map. reflexivity. Qed.
Lemma sb_zero n f : (forall i, i < n -> f i = 0%R) -> sum_below n f = 0%R.
Proof. intros H. rewrite (sb_ext n f (fun i => 0 * 0)%R) by (intros; rewrite H by assumption; ring). rewrite sb_scal. ring. Qed.
Lemma sb_scal_r n a f : sum_below n (fun i => f i * a)%R = (sum_below n f * a)%R.
Proof. rewrite (sb_ext n _ (fun i => a * f i)%R) by (intros; ring). rewrite sb_scal. ring. Qed.
Lemma sb_product n m f g : (sum_below n f * sum_below m g)%R = sum_below n (fun i => sum_below m (fun j => f i * g j))%R.
Proof. rewrite <- sb_scal_r. apply sb_ext. intros i _. now rewrite sb_scal. Qed.
Lemma sb_null n f i : (forall i, i < n -> (0 <= f i)%R) -> sum_below n f = 0%R -> i < n -> f i = 0%R.
Proof.
  intros H E Hi. destruct (Rle_lt_or_eq_dec 0 (f i) (H i Hi)) as [L|L]; [|now symmetry]. pose proof (sb_strict n f i H Hi L). lra.
Qed.
Lemma sb_single n k (f : nat -> R) : k < n -> sum_below n (fun i => f i * (if Nat.eq_dec i k then 1 else 0))%R = f k.
Proof.
  revert k f. induction n as [|n IH]; intros k f H; [lia|]. rewrite sb_first. destruct k as [|k].
  - rewrite sb_zero; [cbn; ring|]. intros i _. destruct (Nat.eq_dec (S i) 0); [lia|ring].
  - rewrite (sb_ext n _ (fun i => f (S i) * (if Nat.eq_dec i k then 1 else 0))%R).
    + rewrite (IH k (fun i => f (S i))) by lia. cbn. ring.
    + intros i _. destruct (Nat.eq_dec i k), (Nat.eq_dec (S i) (S k)); try lia; reflexivity.
Qed.

(** * Cholesky *)
Definition form (p : nat) (a : nat -> nat -> R) (v : nat -> R) : R := sum_below p (fun i => sum_below p (fun j => v i * a i j * v j)%R).
Definition symmetric (p : nat) (a : nat -> nat -> R) : Prop := forall i j, i < p -> j < p -> a i j = a j i.
Definition rest_of (a : matrix) : matrix := fun i j => (a (S i) (S j) - a (S i) 0%nat / sqrt (a 0 0)%nat * (a (S j) 0%nat / sqrt (a 0 0)%nat))%R.

Lemma rest_symmetric p a : symmetric (S p) a -> symmetric p (rest_of a).
Proof. intros H i j Hi Hj. unfold rest_of. rewrite (H (S i) (S j)) by lia. ring. Qed.
Lemma form_split p a v : symmetric (S p) a -> (0 < a 0%nat 0%nat)%R ->
  form (S p) a v = ((sqrt (a 0 0)%nat * v 0%nat + sum_below p (fun i => a (S i) 0%nat / sqrt (a 0 0)%nat * v (S i)))² + form p (rest_of a) (fun i => v (S i)))%R.
Proof.
  intros Hs Ha. set (l := sqrt (a 0 0)%nat). assert (Hl : (0 < l)%R) by now apply sqrt_lt_R0.
  assert (Ll : (a 0%nat 0%nat = l * l)%R) by (unfold l; rewrite sqrt_sqrt; lra).
  set (c := fun i => (a (S i) 0%nat / l)%R). assert (Hc : forall i, a (S i) 0%nat = (l * c i)%R) by (intros; unfold c; field; lra).
  set (t := sum_below p (fun i => (c i * v (S i))%R)).
  assert (R : form p (rest_of a) (fun i => v (S i)) = (sum_below p (fun i => sum_below p (fun j => v (S i) * a (S i) (S j) * v (S j))) - t * t)%R).
  { unfold t. rewrite sb_product. unfold form.
    assert (Q : forall f g : nat -> nat -> R, sum_below p (fun i => sum_below p (fun j => f i j - g i j))%R = (sum_below p (fun i => sum_below p (f i)) - sum_below p (fun i => sum_below p (g i)))%R).
    { intros f g. rewrite (sb_ext p _ (fun i => sum_below p (f i) + -1 * sum_below p (g i))%R).
      - rewrite sb_add, sb_scal. ring.
      - intros i _. rewrite (sb_ext p _ (fun j => f i j + -1 * g i j)%R) by (intros; ring). rewrite sb_add, sb_scal. reflexivity. }
    rewrite <- (Q (fun i j => v (S i) * a (S i) (S j) * v (S j))%R (fun i j => c i * v (S i) * (c j * v (S j)))%R). apply sb_ext. intros i _. apply sb_ext. intros j _.
    unfold rest_of. fold l. fold (c i). fold (c j). ring. }
  rewrite R. unfold form. rewrite sb_first, (sb_first p (fun j => v 0%nat * a 0%nat j * v j)%R).
  rewrite (sb_ext p (fun j => v 0%nat * a 0%nat (S j) * v (S j))%R (fun j => (v 0%nat * l) * (c j * v (S j)))%R).
  2:{ intros j Hj. rewrite (Hs 0 (S j)) by lia. rewrite Hc. ring. }
  rewrite sb_scal. fold t.
  rewrite (sb_ext p (fun i => sum_below (S p) (fun j => v (S i) * a (S i) j * v j)%R) (fun i => (v 0%nat * l) * (c i * v (S i)) + sum_below p (fun j => v (S i) * a (S i) (S j) * v (S j)))%R).
  2:{ intros i Hi. rewrite sb_first, Hc. ring. }
  rewrite sb_add, sb_scal. fold t. change (sum_below p (fun i => a (S i) 0%nat / l * v (S i))%R) with t. rewrite Ll. unfold Rsqr. ring.
Qed.

Lemma cholesky_step p a : cholesky (S p) a = if Rlt_dec 0 (a 0 0) then
    match cholesky p (rest_of a) with Some b => Some (fun i j => match i, j with O, O => sqrt (a 0 0) | O, S _ => 0%R | S i, O => (a (S i) 0%nat / sqrt (a 0 0)%nat)%R | S i, S j => b i j end) | None => None end
  else None.
Proof. reflexivity. Qed.

(** The form of a matrix that has a factor is positive, and zero only at zero. *)
Lemma cholesky_definite p : forall a l, symmetric p a -> cholesky p a = Some l -> forall v, (0 <= form p a v)%R /\ (form p a v = 0%R -> forall i, i < p -> v i = 0%R).
Proof.
  induction p as [|p IH]; intros a l Hs H v.
  - split; [apply Rle_refl|]. intros _ i Hi. lia.
  - rewrite cholesky_step in H. destruct (Rlt_dec 0 (a 0 0)) as [Ha|]; [|discriminate]. destruct (cholesky p (rest_of a)) as [b|] eqn:E; [|discriminate].
    destruct (IH _ _ (rest_symmetric p a Hs) E (fun i => v (S i))) as [P Z]. rewrite (form_split p a v Hs Ha).
    set (q := (sqrt (a 0 0)%nat * v 0%nat + _)%R). pose proof (Rle_0_sqr q) as Q. split; [lra|].
    intros F. assert (F1 : form p (rest_of a) (fun i => v (S i)) = 0%R) by lra. assert (F2 : q² = 0%R) by lra. apply Rsqr_0_uniq in F2.
    specialize (Z F1). intros [|i] Hi; [|apply Z; lia]. unfold q in F2. rewrite sb_zero in F2 by (intros i Hi'; rewrite Z by exact Hi'; ring).
    assert (0 < sqrt (a 0 0)%nat)%R by now apply sqrt_lt_R0. rewrite Rplus_0_r in F2. apply Rmult_integral in F2. destruct F2; lra.
Qed.
Lemma definite_cholesky p : forall a, symmetric p a -> (forall v, nonzero p v -> (0 < form p a v)%R) -> exists l, cholesky p a = Some l.
Proof.
  induction p as [|p IH]; intros a Hs H; [eexists; reflexivity|]. rewrite cholesky_step.
  assert (Ha : (0 < a 0%nat 0%nat)%R).
  { pose proof (H (fun i => if Nat.eq_dec i 0 then 1%R else 0%R)) as P. unfold form in P. rewrite sb_first, sb_first in P. cbn [Nat.eq_dec] in P.
    rewrite !sb_zero in P.
    - assert (N : nonzero (S p) (fun i => if Nat.eq_dec i 0 then 1%R else 0%R)) by (exists 0; split; [lia|cbn; lra]). specialize (P N). cbn in P. lra.
    - intros i _. apply sb_zero. intros j _. cbn. ring.
    - intros i _. cbn. ring. }
  destruct (Rlt_dec 0 (a 0 0)) as [_|]; [|contradiction].
  destruct (IH (rest_of a) (rest_symmetric p a Hs)) as [b Eb].
  - intros v (i & Hi & Nz). set (l := sqrt (a 0 0)%nat). assert (Hl : (0 < l)%R) by now apply sqrt_lt_R0.
    set (t := sum_below p (fun i => (a (S i) 0%nat / l * v i)%R)).
    set (v' := fun i => match i with O => (- t / l)%R | S i => v i end).
    assert (N : nonzero (S p) v') by (exists (S i); split; [lia|exact Nz]). specialize (H v' N). rewrite (form_split p a v' Hs Ha) in H. fold l in H. unfold v' in H at 1 2. fold t in H.
    replace (l * (- t / l) + t)%R with 0%R in H by (field; lra). rewrite Rsqr_0, Rplus_0_l in H. exact H.
  - rewrite Eb. eexists. reflexivity.
Qed.
Lemma cholesky_product p : forall a l, symmetric p a -> cholesky p a = Some l ->
  cholesky_factor p l /\ forall i j, i < p -> j < p -> sum_below p (fun k => l i k * l j k)%R = a i j.
Proof.
  induction p as [|p IH]; intros a l Hs H; [split; [split|]; intros; lia|].
  rewrite cholesky_step in H. destruct (Rlt_dec 0 (a 0 0)) as [Ha|]; [|discriminate]. destruct (cholesky p (rest_of a)) as [b|] eqn:E; [|discriminate]. injection H as <-.
  destruct (IH _ _ (rest_symmetric p a Hs) E) as [[F1 F2] P]. set (s := sqrt (a 0 0)%nat) in *. assert (Hl : (0 < s)%R) by now apply sqrt_lt_R0.
  assert (Ll : (s * s = a 0%nat 0%nat)%R) by (unfold s; rewrite sqrt_sqrt; lra).
  split; [split|].
  - intros [|i] Hi; [exact Hl|]. apply F1. lia.
  - intros [|i] [|j] Hi Hj Hij; try lia; [reflexivity|]. apply F2; lia.
  - intros [|i] [|j] Hi Hj; rewrite sb_first; cbn [cholesky].
    + rewrite sb_zero by (intros; ring). rewrite Ll. ring.
    + rewrite sb_zero by (intros; ring). rewrite (Hs 0 (S j)) by lia. field. lra.
    + rewrite sb_zero by (intros; ring). field. lra.
    + rewrite P by lia. unfold rest_of. fold s. ring.
Qed.

(** * Covariances *)
Section Cov.
  Variables B p : nat.
  Variable x : matrix.
  Variable w : vec.
  Hypothesis Hw : probabilities B w.
  Notation mean := (mvn_mean B x w).
  Notation cov := (mvn_cov B x w).
  Lemma mean_spec i : mean i = mean_of B x w i. Proof. reflexivity. Qed.
  Lemma cov_spec i j : cov i j = covariance_of B x w i j.
  Proof. unfold covariance_of, weighted_average. change (cov i j) with (sum_below B (fun k => w k * (x k i - mean i) * (x k j - mean j))%R). apply sb_ext. intros k _. change (mean_of B x w) with mean. apply Rmult_assoc. Qed.
  Lemma cov_symmetric q : symmetric q cov.
  Proof. intros i j _ _. rewrite !cov_spec. unfold covariance_of, weighted_average. apply sb_ext. intros. ring. Qed.
  Definition along (v : nat -> R) (k : nat) : R := sum_below p (fun i => v i * x k i)%R.
  Definition centre (v : nat -> R) : R := sum_below p (fun i => v i * mean i)%R.
  Lemma centre_along v : centre v = sum_below B (fun k => w k * along v k)%R.
  Proof.
    unfold centre, along. rewrite (sb_ext B _ (fun k => sum_below p (fun i => v i * (w k * x k i)))%R).
    - rewrite sb_swap. apply sb_ext. intros i _. now rewrite sb_scal.
    - intros k _. rewrite <- sb_scal. apply sb_ext. intros; ring.
  Qed.
  Lemma form_cov v : form p cov v = sum_below B (fun k => w k * (along v k - centre v)²)%R.
  Proof.
    unfold form. rewrite (sb_ext p _ (fun i => sum_below B (fun k => w k * (v i * (x k i - mean i)) * (along v k - centre v)))%R).
    - rewrite sb_swap. apply sb_ext. intros k _. rewrite sb_scal_r. rewrite sb_scal. unfold Rsqr. rewrite <- Rmult_assoc. f_equal. f_equal.
      unfold along, centre. rewrite (sb_ext p _ (fun i => v i * x k i + -1 * (v i * mean i))%R) by (intros; ring). rewrite sb_add, sb_scal. ring.
    - intros i _. rewrite (sb_ext p _ (fun j => sum_below B (fun k => w k * (v i * (x k i - mean i)) * (v j * (x k j - mean j))))%R).
      + rewrite sb_swap. apply sb_ext. intros k _. rewrite sb_scal. f_equal. unfold along, centre.
        rewrite (sb_ext p _ (fun j => v j * x k j + -1 * (v j * mean j))%R) by (intros; ring). rewrite sb_add, sb_scal. ring.
      + intros j _. rewrite cov_spec. unfold covariance_of, weighted_average. rewrite <- sb_scal, <- sb_scal_r. apply sb_ext. intros k _. change (mean_of B x w) with mean. ring.
  Qed.
  Lemma heavy : exists k, k < B /\ (0 < w k)%R.
  Proof.
    destruct Hw as [P S]. destruct (existsb (fun k => if Rlt_dec 0 (w k) then true else false) (seq 0 B)) eqn:E.
    - apply existsb_exists in E. destruct E as (k & Hk & H). apply in_seq in Hk. exists k. split; [lia|]. destruct (Rlt_dec 0 (w k)); [assumption|discriminate].
    - exfalso. rewrite sb_zero in S; [lra|]. intros k Hk. destruct (Rlt_dec 0 (w k)) as [L|L]; [|specialize (P k Hk); lra].
      assert (existsb (fun k => if Rlt_dec 0 (w k) then true else false) (seq 0 B) = true); [|congruence].
      apply existsb_exists. exists k. split; [apply in_seq; lia|]. now destruct (Rlt_dec 0 (w k)).
  Qed.
  Lemma flat_form v : flat B p x w v <-> form p cov v = 0%R.
  Proof.
    destruct Hw as [P S]. rewrite form_cov. assert (N : forall k, k < B -> (0 <= w k * (along v k - centre v)²)%R) by (intros; apply Rmult_le_pos; [now apply P|apply Rle_0_sqr]). split.
    - intros F. destruct heavy as (k0 & H0 & W0).
      assert (C : centre v = along v k0).
      { rewrite centre_along. rewrite (sb_ext B _ (fun k => w k * along v k0)%R).
        - rewrite sb_scal_r. change (sum_below B (fun i => w i)) with (sum_below B w). rewrite S. ring.
        - intros k Hk. destruct (Rle_lt_or_eq_dec 0 (w k) (P k Hk)) as [L|L]; [|rewrite <- L; ring]. f_equal. now apply F. }
      apply sb_zero. intros k Hk. destruct (Rle_lt_or_eq_dec 0 (w k) (P k Hk)) as [L|L]; [|rewrite <- L; ring].
      rewrite C. replace (along v k) with (along v k0) by (now apply F). rewrite Rminus_diag_eq by reflexivity. rewrite Rsqr_0. ring.
    - intros Z. assert (G : forall k, k < B -> (0 < w k)%R -> along v k = centre v).
      { intros k Hk Wk. pose proof (sb_null B _ k N Z Hk) as E. apply Rmult_integral in E. destruct E as [E|E]; [lra|]. apply Rsqr_0_uniq in E. lra. }
      intros k k' Hk Hk' Wk Wk'. change (along v k = along v k'). now rewrite !G.
  Qed.
  Lemma form_nonneg v : (0 <= form p cov v)%R.
  Proof. rewrite form_cov. apply sb_pos. intros. apply Rmult_le_pos; [now apply (proj1 Hw)|apply Rle_0_sqr]. Qed.
  Lemma cov_cholesky : (exists l, cholesky p cov = Some l) <-> (forall v, nonzero p v -> ~ flat B p x w v).
  Proof.
    split.
    - intros [l E] v (i & Hi & Nz) F. apply flat_form in F. destruct (cholesky_definite p cov l (cov_symmetric p) E v) as [_ Z]. apply Nz. now apply Z.
    - intros H. apply definite_cholesky; [apply cov_symmetric|]. intros v Nz. destruct (Rle_lt_or_eq_dec _ _ (form_nonneg v)) as [L|L]; [exact L|]. destruct (H v Nz). apply flat_form. now symmetry.
  Qed.
  Lemma cov_diag i : (0 <= cov i i)%R /\ (cov i i = 0%R <-> constant B x w i).
  Proof.
    destruct Hw as [P S]. rewrite cov_spec. unfold covariance_of, weighted_average. set (m := mean_of B x w i).
    assert (N : forall k, k < B -> (0 <= w k * ((x k i - m) * (x k i - m)))%R) by (intros; apply Rmult_le_pos; [now apply P|apply Rle_0_sqr]).
    split; [now apply sb_pos|]. split.
    - intros Z k k' Hk Hk' Wk Wk'. assert (G : forall k, k < B -> (0 < w k)%R -> x k i = m).
      { intros q Hq Wq. pose proof (sb_null B _ q N Z Hq) as E. apply Rmult_integral in E. destruct E as [E|E]; [lra|]. apply Rmult_integral in E. lra. }
      now rewrite !G.
    - intros F. destruct heavy as (k0 & H0 & W0). assert (C : m = x k0 i).
      { unfold m, mean_of, weighted_average. rewrite (sb_ext B _ (fun k => w k * x k0 i)%R).
        - rewrite sb_scal_r. change (sum_below B (fun i => w i)) with (sum_below B w). rewrite S. ring.
        - intros k Hk. destruct (Rle_lt_or_eq_dec 0 (w k) (P k Hk)) as [L|L]; [|rewrite <- L; ring]. f_equal. now apply F. }
      apply sb_zero. intros k Hk. destruct (Rle_lt_or_eq_dec 0 (w k) (P k Hk)) as [L|L]; [|rewrite <- L; ring]. rewrite C, (F k k0) by assumption. ring.
  Qed.
End Cov.

Lemma lower_cholesky_spec p l : lower_cholesky p l = true <-> cholesky_factor p l.
Proof.
  unfold lower_cholesky, cholesky_factor. rewrite forallb_forall. split.
  - intros H. split.
    + intros i Hi. specialize (H i ltac:(apply in_seq; lia)). rewrite forallb_forall in H. specialize (H i ltac:(apply in_seq; lia)). destruct (Rlt_dec 0 (l i i)); [assumption|discriminate].
    + intros i j Hi Hj Hij. specialize (H i ltac:(apply in_seq; lia)). rewrite forallb_forall in H. specialize (H j ltac:(apply in_seq; lia)). destruct (Rlt_dec 0 (l i i)); [|discriminate].
      destruct (Nat.ltb_spec i j); [|lia]. destruct (Req_EM_T (l i j) 0); [assumption|discriminate].
  - intros [H1 H2] i Hi. apply in_seq in Hi. apply forallb_forall. intros j Hj. apply in_seq in Hj. destruct (Rlt_dec 0 (l i i)) as [_|N]; [|destruct N; apply H1; lia].
    destruct (Nat.ltb_spec i j); [|reflexivity]. destruct (Req_EM_T (l i j) 0) as [_|N]; [reflexivity|]. destruct N. apply H2; lia.
Qed.

(** * Underdetermined equations *)
Definition skip (q r : nat) : nat := if r <? q then r else S r.
Lemma kernel p : forall m (a : nat -> nat -> R), m < p -> exists v, nonzero p v /\ forall q, q < m -> sum_below p (fun i => v i * a q i)%R = 0%R.
Proof.
  induction p as [|p IH]; intros m a Hm; [lia|].
  destruct (existsb (fun q => if Req_EM_T (a q 0%nat) 0 then false else true) (seq 0 m)) eqn:E.
  - apply existsb_exists in E. destruct E as (q0 & Hq & N). apply in_seq in Hq. destruct (Req_EM_T (a q0 0%nat) 0) as [|N0]; [discriminate|]. clear N.
    set (b := fun r i => (a (skip q0 r) (S i) - a (skip q0 r) 0%nat / a q0 0%nat * a q0 (S i))%R).
    destruct (IH (m - 1) b ltac:(lia)) as (v & (i & Hi & Nz) & K). set (t := sum_below p (fun i => v i * a q0 (S i))%R).
    exists (fun i => match i with O => (- t / a q0 0%nat)%R | S i => v i end). split; [exists (S i); split; [lia|exact Nz]|].
    intros q Hq'. rewrite sb_first. destruct (Nat.eq_dec q q0) as [->|Ne]; [change (sum_below p (fun i => v i * a q0 (S i))%R) with t; field; exact N0|].
    set (r := if q <? q0 then q else q - 1). assert (Hr : skip q0 r = q) by (unfold skip, r; destruct (Nat.ltb_spec q q0); [destruct (Nat.ltb_spec q q0); lia|destruct (Nat.ltb_spec (q - 1) q0); lia]).
    assert (Lr : r < m - 1) by (unfold r; destruct (Nat.ltb_spec q q0); lia). specialize (K r Lr). unfold b in K. rewrite Hr in K.
    rewrite (sb_ext p _ (fun i => v i * a q (S i) + - (a q 0%nat / a q0 0%nat) * (v i * a q0 (S i)))%R) in K by (intros; ring). rewrite sb_add, sb_scal in K. fold t in K.
    replace (sum_below p (fun i => v i * a q (S i))%R) with (a q 0%nat / a q0 0%nat * t)%R by lra. field. exact N0.
  - exists (fun i => if Nat.eq_dec i 0 then 1%R else 0%R). split; [exists 0; split; [lia|cbn; lra]|].
    intros q Hq. rewrite sb_first, sb_zero by (intros; cbn; ring). cbn. assert (Z : a q 0%nat = 0%R).
    { destruct (Req_EM_T (a q 0%nat) 0) as [Z|Z]; [exact Z|]. exfalso. assert (existsb (fun q => if Req_EM_T (a q 0%nat) 0 then false else true) (seq 0 m) = true); [|congruence].
      apply existsb_exists. exists q. split; [apply in_seq; lia|]. now destruct (Req_EM_T (a q 0%nat) 0). }
    rewrite Z. ring.
Qed.
Lemma few_flat B p x w : probabilities B w -> few B w p -> exists v, nonzero p v /\ flat B p x w v.
Proof.
  intros Hw (hv & Len & C). destruct (heavy B w Hw) as (k0 & H0 & W0). pose proof (C k0 H0 W0) as I0.
  destruct hv as [|h hv]; [destruct I0|]. cbn in Len.
  destruct (kernel p (length hv) (fun q i => x (nth q hv 0%nat) i - x h i)%R ltac:(lia)) as (v & Nz & K). exists v. split; [exact Nz|].
  assert (G : forall k, k < B -> (0 < w k)%R -> sum_below p (fun i => v i * x k i)%R = sum_below p (fun i => v i * x h i)%R).
  { intros k Hk Wk. destruct (C k Hk Wk) as [<-|I]; [reflexivity|]. destruct (In_nth _ _ 0 I) as (q & Hq & <-). specialize (K q Hq).
    rewrite (sb_ext p _ (fun i => v i * x (nth q hv 0%nat) i + -1 * (v i * x h i))%R) in K by (intros; ring). rewrite sb_add, sb_scal in K. lra. }
  intros k k' Hk Hk' Wk Wk'. rewrite (G k Hk Wk), (G k' Hk' Wk'). reflexivity.
Qed.
