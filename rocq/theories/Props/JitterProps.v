(** Properties C60, C78 (pyfilter/inference/sequential/kernels/jittering.py). *)
From Coq Require Import Reals Lra Lia List Arith Permutation Sorted.
From Verif.Model Require Import Base Jitter.
From Verif.Spec Require Import JitterSpec.
Import ListNotations.
Local Open Scope nat_scope.

(** * Sums *)
Lemma total_ext n f g : (forall i, i < n -> f i = g i) -> total n f = total n g.
Proof. induction n; cbn; intros H; [reflexivity|]. rewrite IHn by (intros; apply H; lia). rewrite H by lia. reflexivity. Qed.
Lemma total_lin n a b f g : total n (fun i => (a * f i + b * g i)%R) = (a * total n f + b * total n g)%R.
Proof. induction n; cbn; [ring|]. rewrite IHn. ring. Qed.
Lemma total_pos n f : (forall i, i < n -> (0 <= f i)%R) -> (0 <= total n f)%R.
Proof. induction n; cbn; intros H; [lra|]. assert (0 <= total n f)%R by (apply IHn; intros; apply H; lia). assert (0 <= f n)%R by (apply H; lia). lra. Qed.
Lemma total_shift n f : total (S n) f = (f 0%nat + total n (fun i => f (S i)))%R.
Proof. induction n; [cbn; ring|]. cbn in *. rewrite IHn. ring. Qed.
Lemma rsum_total {A} (l : list A) (g : A -> R) d : rsum (map g l) = total (List.length l) (fun i => g (nth i l d)).
Proof. induction l as [|a l IH]; [reflexivity|]. cbn [List.length]. rewrite total_shift. cbn. unfold rsum in IH. now rewrite IH. Qed.
Lemma weighted_total w c : List.length w = List.length c -> weighted_sum w c = total (List.length c) (fun i => (nth i w 0 * nth i c 0)%R).
Proof.
  intros L. unfold weighted_sum. rewrite (rsum_total _ _ (0%R, 0%R)), combine_length, L, Nat.min_id. apply total_ext. intros i I. now rewrite combine_nth.
Qed.
Lemma column_nth x j i : nth i (column x j) 0%R = at_ x i j.
Proof.
  unfold column, at_. destruct (Nat.lt_ge_cases i (List.length x)) as [L|L].
  - rewrite (nth_indep _ 0%R ((fun r => nth j r 0%R) [])) by now rewrite map_length. now rewrite (map_nth (fun r => nth j r 0%R)).
  - rewrite !nth_overflow; try (rewrite ?map_length; lia); [reflexivity|]. rewrite (nth_overflow x) by lia. cbn; lia.
Qed.
Section Sample.
  Context {x : list (list R)} {w : list R} {n d : nat} (S : sample_ok x w n d).
  Lemma weights_one : total n (fun i => nth i w 0%R) = 1%R.
  Proof. rewrite <- (s_weights _ _ _ _ S). rewrite <- (rsum_total w (fun a => a) 0%R), map_id. exact (s_one _ _ _ _ S). Qed.
  Lemma weights_pos i : (0 <= nth i w 0)%R.
  Proof. destruct (nth_in_or_default i w 0%R) as [H| ->]; [|lra]. pose proof (s_pos _ _ _ _ S) as F. rewrite Forall_forall in F. now apply F. Qed.
  Lemma mean_eq j : weighted_sum w (column x j) = mean_of x w n j.
  Proof.
    rewrite weighted_total; unfold column; rewrite map_length, ?(s_rows _ _ _ _ S); [|apply (s_weights _ _ _ _ S)]. apply total_ext. intros i _. f_equal. apply column_nth.
  Qed.
  Lemma var_eq j : weighted_sum w (map (fun a => ((a - mean_of x w n j) ^ 2)%R) (column x j)) = var_of x w n j.
  Proof.
    rewrite weighted_total; unfold column; rewrite !map_length, ?(s_rows _ _ _ _ S); [|apply (s_weights _ _ _ _ S)]. apply total_ext. intros i I. f_equal.
    set (g := fun a => ((a - mean_of x w n j) ^ 2)%R). rewrite (nth_indep _ 0%R (g 0%R)) by (rewrite !map_length; now rewrite (s_rows _ _ _ _ S)). rewrite (map_nth g).
    fold (column x j). now rewrite column_nth.
  Qed.
  Lemma mean_lin j a b : total n (fun i => (nth i w 0 * (a * at_ x i j + b))%R) = (a * mean_of x w n j + b)%R.
  Proof.
    rewrite (total_ext n _ (fun i => (a * (nth i w 0 * at_ x i j) + b * nth i w 0)%R)) by (intros; ring). rewrite total_lin, weights_one. unfold mean_of. ring.
  Qed.
  Lemma var_lin j a b : (total n (fun i => (nth i w 0 * (a * at_ x i j + b - (a * mean_of x w n j + b)) ^ 2)%R) = a ^ 2 * var_of x w n j)%R.
  Proof.
    rewrite (total_ext n _ (fun i => (a ^ 2 * (nth i w 0 * (at_ x i j - mean_of x w n j) ^ 2) + 0 * 0)%R)) by (intros; ring). rewrite total_lin. unfold var_of. ring.
  Qed.
  Lemma var_pos j : (0 <= var_of x w n j)%R.
  Proof. apply total_pos. intros i _. apply Rmult_le_pos; [apply weights_pos|]. apply pow2_ge_0. Qed.
  Lemma width_eq : 0 < n -> width x = d.
  Proof. intros P. unfold width. pose proof (s_cols _ _ _ _ S) as F. rewrite Forall_forall in F. apply F, nth_In. now rewrite (s_rows _ _ _ _ S). Qed.
  Lemma row_len i : i < n -> List.length (nth i x []) = d.
  Proof. intros I. pose proof (s_cols _ _ _ _ S) as F. rewrite Forall_forall in F. apply F, nth_In. now rewrite (s_rows _ _ _ _ S). Qed.
End Sample.

(** * What the output looks like *)
Lemma gather_ok x indices : Forall (fun i => i < List.length x) indices -> gather x indices = Ok (map (fun i => nth i x []) indices).
Proof. induction 1 as [|i l H F IH]; [reflexivity|]. cbn. rewrite (nth_error_nth' x [] H), IH. reflexivity. Qed.
Lemma gather_bad x indices : ~ Forall (fun i => i < List.length x) indices -> gather x indices = Raise IndexError.
Proof.
  induction indices as [|i l IH]; intros H; [contradiction H; constructor|]. cbn. destruct (nth_error x i) eqn:E; [|reflexivity].
  rewrite IH; [reflexivity|]. intros F. apply H. constructor; [|exact F]. apply nth_error_Some. congruence.
Qed.

Definition noise_shape (noise : list (list R)) (n d : nat) : Prop := List.length noise = n /\ Forall (fun r => List.length r = d) noise.
Lemma jitter_values_at values noise scale n d k j : List.length values = n -> Forall (fun r => List.length r = d) values -> noise_shape noise n d -> List.length scale = d ->
  k < n -> j < d -> at_ (jitter_values values noise scale) k j = (at_ values k j + nth j scale 0 * at_ noise k j)%R.
Proof.
  intros L F [L' F'] Ls K J. unfold at_, jitter_values.
  set (f := fun p : list R * list R => map (fun q => (fst (fst q) + snd q * snd (fst q))%R) (combine (combine (fst p) (snd p)) scale)).
  rewrite (nth_indep _ [] (f ([], []))) by (rewrite map_length, combine_length; lia). rewrite (map_nth f), combine_nth by lia. unfold f. cbn [fst snd].
  rewrite Forall_forall in F, F'. assert (A1 : List.length (nth k values []) = d) by (apply F, nth_In; lia). assert (A2 : List.length (nth k noise []) = d) by (apply F', nth_In; lia).
  set (h := fun q : R * R * R => (fst (fst q) + snd q * snd (fst q))%R). rewrite (nth_indep _ 0%R (h (0%R, 0%R, 0%R))) by (rewrite map_length, !combine_length; lia).
  rewrite (map_nth h), !combine_nth by (rewrite ?combine_length; lia). reflexivity.
Qed.
Lemma jitter_values_shape values noise scale n d : List.length values = n -> Forall (fun r => List.length r = d) values -> noise_shape noise n d -> List.length scale = d ->
  List.length (jitter_values values noise scale) = n /\ Forall (fun r => List.length r = d) (jitter_values values noise scale).
Proof.
  intros L F [L' F'] Ls. unfold jitter_values. split; [rewrite map_length, combine_length; lia|]. apply Forall_map, Forall_forall. intros [a b] I.
  rewrite map_length, !combine_length. cbn [fst snd]. rewrite Forall_forall in F, F'. rewrite (F a), (F' b), Ls by (eapply in_combine_l, I || eapply in_combine_r, I). lia.
Qed.

(** The centre around which particle [i] is jittered, and the noise scale, as fitted. *)
Definition centre (eps : R) (k : kernel) (x : list (list R)) (w : list R) (n : nat) (i j : nat) : R :=
  let m := mean_of x w n j in
  match k with
  | Shrinking _ => (m + sqrt (1 - bandwidth eps w ^ 2) * (at_ x i j - m))%R
  | LiuWest _ a _ => (at_ x i j * a + (1 - a) * m)%R
  | _ => at_ x i j
  end.
Definition fitted_scale eps order argmin (k : kernel) (x : list (list R)) (w : list R) (n j : nat) : R :=
  let v := robust_var_column order argmin (column x j) w (mean_of x w n j) in
  match k with
  | Shrinking _ | NonShrinking _ => (bandwidth eps w * sqrt v)%R
  | LiuWest _ _ bw => (bw * sqrt v)%R
  | ConstantScale _ (ScaleTensor [r]) => r
  | ConstantScale _ (ScaleTensor l) => nth j l 0%R
  | ConstantScale _ (ScaleFloat r) => r
  end.
Definition scale_fits (k : kernel) (d : nat) : Prop :=
  match k with ConstantScale _ (ScaleFloat _) => False | ConstantScale _ (ScaleTensor l) => List.length l = 1 \/ List.length l = d | _ => True end.

Lemma map_seq_nth0 (f : nat -> R) d j : j < d -> nth j (map f (seq 0 d)) 0%R = f j.
Proof. intros J. rewrite (nth_indep _ 0%R (f 0)) by now rewrite map_length, seq_length. now rewrite (map_nth f), seq_nth. Qed.
Lemma fit_ok eps order argmin k x w n d indices : sample_ok x w n d -> 0 < n -> scale_fits k d -> Forall (fun i => i < n) indices ->
  exists values scale, fit eps order argmin k x w indices = Ok (values, Some scale) /\ List.length values = List.length indices /\ Forall (fun r => List.length r = d) values /\ List.length scale = d /\
    (forall b j, b < List.length indices -> j < d -> at_ values b j = centre eps k x w n (nth b indices 0) j) /\
    (forall j, j < d -> nth j scale 0%R = fitted_scale eps order argmin k x w n j).
Proof.
  intros S P K F. pose proof (width_eq S P) as W. pose proof (s_rows _ _ _ _ S) as Lx.
  assert (Cm : List.length (column_means x w) = d) by (unfold column_means; now rewrite map_length, seq_length).
  assert (Rv : forall f : R -> R, List.length (map f (robust_var order argmin x w)) = d) by (intros; unfold robust_var; now rewrite !map_length, seq_length).
  assert (Rn : forall bw j, j < d -> nth j (map (fun v => (bw * sqrt v)%R) (robust_var order argmin x w)) 0%R = (bw * sqrt (robust_var_column order argmin (column x j) w (mean_of x w n j)))%R).
  { intros bw j J. unfold robust_var. rewrite map_map, W, map_seq_nth0 by exact J. now rewrite (mean_eq S). }
  assert (G : forall g : R * R -> R, let y := map (fun r => map g (combine r (column_means x w))) x in
    gather y indices = Ok (map (fun i => nth i y []) indices) /\ Forall (fun r => List.length r = d) (map (fun i => nth i y []) indices) /\
    forall b j, b < List.length indices -> j < d -> at_ (map (fun i => nth i y []) indices) b j = g (at_ x (nth b indices 0) j, mean_of x w n j)).
  { intros g y. assert (Ly : List.length y = n) by (unfold y; rewrite map_length; exact Lx).
    assert (Yr : forall i, i < n -> nth i y [] = map g (combine (nth i x []) (column_means x w))).
    { intros i I. unfold y. set (h := fun r : list R => map g (combine r (column_means x w))). rewrite (nth_indep _ [] (h [])) by (rewrite map_length; lia). now rewrite (map_nth h). }
    assert (F' : forall i, In i indices -> i < n) by now apply Forall_forall. split; [apply gather_ok; now rewrite Ly|]. split.
    - apply Forall_map, Forall_forall. intros i I. rewrite Yr by auto. rewrite map_length, combine_length, Cm, (row_len S) by auto. lia.
    - intros b j B J. unfold at_ at 1. assert (I : nth b indices 0 < n) by (apply F', nth_In; exact B).
      rewrite (nth_indep (map (fun i => nth i y []) indices) [] ((fun i => nth i y []) 0)) by now rewrite map_length. rewrite (map_nth (fun i => nth i y [])), Yr by exact I.
      rewrite (nth_indep (map g _) 0%R (g (0%R, 0%R))) by (rewrite map_length, combine_length, Cm, (row_len S) by auto; lia). rewrite (map_nth g), combine_nth by (rewrite Cm; now apply (row_len S)).
      f_equal. f_equal. unfold column_means. rewrite W, map_seq_nth0 by exact J. apply (mean_eq S). }
  assert (G0 : gather x indices = Ok (map (fun i => nth i x []) indices) /\ Forall (fun r => List.length r = d) (map (fun i => nth i x []) indices) /\
    forall b j, b < List.length indices -> j < d -> at_ (map (fun i => nth i x []) indices) b j = at_ x (nth b indices 0) j).
  { split; [apply gather_ok; now rewrite Lx|]. split.
    - apply Forall_map, Forall_forall. intros i I. apply (row_len S). rewrite Forall_forall in F. now apply F.
    - intros b j B J. unfold at_. rewrite (nth_indep _ [] ((fun i => nth i x []) 0)) by now rewrite map_length. now rewrite (map_nth (fun i => nth i x [])). }
  destruct k as [m|m|m a bw|m s]; cbn [fit].
  - destruct (G (fun p => (snd p + sqrt (1 - bandwidth eps w ^ 2) * (fst p - snd p))%R)) as (E & F1 & F2). rewrite E. cbn [bind].
    do 2 eexists. split; [reflexivity|]. rewrite map_length. split; [reflexivity|]. split; [exact F1|]. split; [apply Rv|]. split; [exact F2|exact (Rn _)].
  - destruct G0 as (E & F1 & F2). rewrite E. cbn [bind]. do 2 eexists. split; [reflexivity|]. rewrite map_length. split; [reflexivity|]. split; [exact F1|]. split; [apply Rv|]. split; [exact F2|exact (Rn _)].
  - destruct (G (fun p => (fst p * a + (1 - a) * snd p)%R)) as (E & F1 & F2). rewrite E. cbn [bind].
    do 2 eexists. split; [reflexivity|]. rewrite map_length. split; [reflexivity|]. split; [exact F1|]. split; [apply Rv|]. split; [exact F2|exact (Rn _)].
  - destruct G0 as (E & F1 & F2). rewrite E. cbn [bind]. destruct s as [r|l]; [contradiction|]. exists (map (fun i => nth i x []) indices), (match l with [r] => repeat r (width x) | _ => l end).
    split; [destruct l as [|r [|r' l]]; reflexivity|]. rewrite map_length, W. split; [reflexivity|]. split; [exact F1|]. split; [|split; [exact F2|]].
    + cbn in K. destruct l as [|r [|r' l]]; cbn in *; [lia|apply repeat_length|lia].
    + intros j J. cbn. destruct l as [|r [|r' l]]; [reflexivity| |reflexivity]. clear - J. revert j J. induction d; intros [|j] J; cbn; [lia|lia|reflexivity|apply IHd; lia].
Qed.

(** * C60 *)
(** For every kernel: the jittered particle in slot [b] is the centre of the particle chosen for slot [b] plus noise; the
    noise has the fitted scale, never below the configured minimum; other numbers of indices and indices out of range
    are refused. *)
Theorem C60_output : forall eps order argmin k x w n d, sample_ok x w n d -> 0 < n -> scale_fits k d -> exists c s,
  (forall j, j < d -> (min_std k <= s j)%R /\ s j = Rmax (fitted_scale eps order argmin k x w n j) (min_std k)) /\
  (forall i j, c i j = centre eps k x w n i j) /\
  (forall indices noise, List.length indices = n -> Forall (fun i => i < n) indices -> noise_shape noise n d ->
     exists out, jitter eps order argmin k x w indices noise = Ok out /\ List.length out = n /\ Forall (fun r => List.length r = d) out /\
       forall b j, b < n -> j < d -> at_ out b j = (c (nth b indices 0%nat) j + s j * at_ noise b j)%R) /\
  (forall indices noise, List.length indices <> n -> jitter eps order argmin k x w indices noise = Raise GenericException) /\
  (forall indices noise, List.length indices = n -> ~ Forall (fun i => i < n) indices -> jitter eps order argmin k x w indices noise = Raise IndexError).
Proof.
  intros eps order argmin k x w n d S P K. exists (centre eps k x w n), (fun j => Rmax (fitted_scale eps order argmin k x w n j) (min_std k)).
  pose proof (s_rows _ _ _ _ S) as Lx. pose proof (width_eq S P) as W.
  split; [intros j J; split; [apply Rmax_r|reflexivity]|]. split; [reflexivity|]. split; [|split].
  - intros indices noise L F N. destruct (fit_ok eps order argmin k x w n d indices S P K F) as (values & scale & E & E1 & E2 & E3 & E4 & E5).
    unfold jitter. rewrite L, Lx, Nat.eqb_refl, E. cbn [negb bind fst snd]. rewrite W, E3, Nat.eqb_refl. cbn [negb]. eexists. split; [reflexivity|].
    set (f := fun s => Rmax s (min_std k)). assert (Lf : List.length (map f scale) = d) by now rewrite map_length.
    destruct (jitter_values_shape values noise (map f scale) n d) as [Q1 Q2]; auto; [congruence|]. split; [exact Q1|]. split; [exact Q2|].
    intros b j B J. rewrite (jitter_values_at values noise (map f scale) n d) by (auto; congruence). rewrite E4 by (auto; lia). f_equal. f_equal.
    rewrite (nth_indep _ 0%R (f 0%R)) by lia. rewrite (map_nth f). unfold f. now rewrite E5.
  - intros indices noise L. unfold jitter. rewrite Lx, (proj2 (Nat.eqb_neq _ _) L). reflexivity.
  - intros indices noise L F. unfold jitter. rewrite L, Lx, Nat.eqb_refl. cbn [negb].
    assert (G : forall y, List.length y = n -> gather y indices = Raise IndexError) by (intros y <-; now apply gather_bad).
    destruct k; cbn [fit]; rewrite G by (rewrite ?map_length; exact Lx); reflexivity.
Qed.
Print Assumptions C60_output.

Lemma bandwidth_range eps w : (0 < eps < 1 / 2)%R -> (eps <= bandwidth eps w <= 1 - eps)%R.
Proof.
  intros E. unfold bandwidth, clamp. split; [|apply Rmin_r]. apply Rmin_glb; [apply Rmax_r|lra].
Qed.
Lemma sqrt_sq a : (0 <= a)%R -> (sqrt a ^ 2 = a)%R.
Proof. intros. rewrite <- Rsqr_pow2. now apply Rsqr_sqrt. Qed.
Lemma robust_bounds order argmin c w m : (0 <= weighted_sum w (map (fun a => ((a - m) ^ 2)%R) c))%R ->
  (0 <= robust_var_column order argmin c w m <= weighted_sum w (map (fun a => ((a - m) ^ 2)%R) c))%R.
Proof. intros H. unfold robust_var_column. destruct Rle_dec as [L|L]; [split; [apply pow2_ge_0|exact L]|lra]. Qed.

(** Mean and variance of a jittered component: an index drawn with the weights as probabilities, independent noise. *)
Definition jittered_mean (w : list R) (n : nat) (E : (R -> R) -> R) (c : nat -> R) (s : R) : R := total n (fun i => (nth i w 0 * E (fun z => c i + s * z))%R).
Definition jittered_var (w : list R) (n : nat) (E : (R -> R) -> R) (c : nat -> R) (s m : R) : R := total n (fun i => (nth i w 0 * E (fun z => (c i + s * z - m) ^ 2))%R).
Lemma noise_mean E a s : noise_ok E -> E (fun z => (a + s * z)%R) = a.
Proof.
  intros [L X O M V]. rewrite (X _ (fun z => (a * 1 + s * z)%R)) by (intros; ring). rewrite (L a s (fun _ => 1%R) (fun z => z)), O, M. ring.
Qed.
Lemma noise_square E a s m : noise_ok E -> (E (fun z => ((a + s * z - m) ^ 2)%R) = (a - m) ^ 2 + s ^ 2)%R.
Proof.
  intros [L X O M V]. rewrite (X _ (fun z => (1 * ((a - m) ^ 2 * 1 + (2 * (a - m) * s) * z) + s ^ 2 * z ^ 2)%R)) by (intros; ring).
  rewrite (L 1%R (s ^ 2)%R (fun z => ((a - m) ^ 2 * 1 + (2 * (a - m) * s) * z)%R) (fun z => (z ^ 2)%R)), V, (L _ _ (fun _ => 1%R) (fun z => z)), O, M. ring.
Qed.

Section Moments.
  Context (E : (R -> R) -> R) (N : noise_ok E) {x : list (list R)} {w : list R} {n d : nat} (S : sample_ok x w n d).
  Lemma affine_mean a b s j : jittered_mean w n E (fun i => (a * at_ x i j + b)%R) s = (a * mean_of x w n j + b)%R.
  Proof. unfold jittered_mean. rewrite (total_ext n _ (fun i => (nth i w 0 * (a * at_ x i j + b))%R)); [apply (mean_lin S)|]. intros. now rewrite noise_mean. Qed.
  Lemma affine_var a b s j : (jittered_var w n E (fun i => (a * at_ x i j + b)%R) s (a * mean_of x w n j + b) = a ^ 2 * var_of x w n j + s ^ 2)%R.
  Proof.
    unfold jittered_var. rewrite (total_ext n _ (fun i => (1 * (nth i w 0 * (a * at_ x i j + b - (a * mean_of x w n j + b)) ^ 2) + s ^ 2 * nth i w 0)%R)).
    - rewrite total_lin, var_lin, (weights_one S). ring.
    - intros. rewrite noise_square by exact N. ring.
  Qed.
End Moments.

(** The mean of every component is preserved by every kernel. *)
Theorem C60_mean : forall eps k x w n d E s j, sample_ok x w n d -> noise_ok E -> jittered_mean w n E (fun i => centre eps k x w n i j) s = mean_of x w n j.
Proof.
  intros eps k x w n d E s j S N. set (m := mean_of x w n j).
  assert (G : forall a b, (forall i, centre eps k x w n i j = a * at_ x i j + b)%R -> (a * m + b = m)%R -> jittered_mean w n E (fun i => centre eps k x w n i j) s = m).
  { intros a b Q1 Q2. rewrite <- Q2 at 1. unfold m. rewrite <- (affine_mean E N S a b s j). unfold jittered_mean. apply total_ext. intros. f_equal. apply (n_ext _ N). intros z. now rewrite Q1. }
  destruct k as [ms|ms|ms a bw|ms sc].
  - apply (G (sqrt (1 - bandwidth eps w ^ 2)) (m - sqrt (1 - bandwidth eps w ^ 2) * m)%R); [intros; unfold centre; fold m|]; ring.
  - apply (G 1%R 0%R); [intros; cbn|]; ring.
  - apply (G a ((1 - a) * m)%R); [intros; unfold centre; fold m|]; ring.
  - apply (G 1%R 0%R); [intros; cbn|]; ring.
Qed.
Print Assumptions C60_mean.

(** The shrinkage kernels: with the fitted noise scale the variance of a component becomes
    [beta^2 var + (1 - beta^2) robust], so it is preserved exactly when the robust variance is the variance, and shrinks
    otherwise; the robust variance never exceeds the variance. *)
Theorem C60_variance : forall eps order argmin k x w n d E j, sample_ok x w n d -> noise_ok E -> (0 < eps < 1 / 2)%R ->
  (exists ms, k = Shrinking ms) \/ (exists a, liu_west eps a = Ok k) ->
  let v := var_of x w n j in let r := robust_var_column order argmin (column x j) w (mean_of x w n j) in
  let total := jittered_var w n E (fun i => centre eps k x w n i j) (fitted_scale eps order argmin k x w n j) (mean_of x w n j) in
  (0 <= r <= v)%R /\ (total <= v)%R /\ (r = v -> total = v) /\
  exists b, (0 <= b <= 1)%R /\ (total = (1 - b) * v + b * r)%R /\ (b = 0 -> exists a, liu_west eps a = Ok k /\ a ^ 2 = 1)%R.
Proof.
  intros eps order argmin k x w n d E j S N Ep K v r tot. set (m := mean_of x w n j) in *.
  assert (B : (0 <= r <= v)%R).
  { pose proof (robust_bounds order argmin (column x j) w m) as Q. unfold m in Q. rewrite (var_eq S) in Q. apply Q, (var_pos S). }
  assert (X : exists b, (0 <= b <= 1)%R /\ (tot = (1 - b) * v + b * r)%R /\ (b = 0 -> exists a, liu_west eps a = Ok k /\ a ^ 2 = 1)%R).
  { assert (G : forall a c s, (forall i, centre eps k x w n i j = a * at_ x i j + c)%R -> (a * m + c = m)%R -> fitted_scale eps order argmin k x w n j = s -> (tot = a ^ 2 * v + s ^ 2)%R).
    { intros a c s Q1 Q2 Q3. unfold tot. rewrite Q3. rewrite <- Q2 at 1. unfold m, v. rewrite <- (affine_var E N S a c s j). unfold jittered_var. apply total_ext. intros. f_equal.
      apply (n_ext _ N). intros z. now rewrite Q1. }
    destruct K as [[ms ->]|[a Ka]].
    - pose proof (bandwidth_range eps w Ep) as Bw. set (bw := bandwidth eps w) in *. exists (bw ^ 2)%R. assert (P : (0 <= 1 - bw ^ 2)%R) by nra. split; [nra|]. split.
      + rewrite (G (sqrt (1 - bw ^ 2)) (m - sqrt (1 - bw ^ 2) * m)%R (bw * sqrt r)%R); [|intros; unfold centre; fold m; fold bw; ring|ring|reflexivity].
        rewrite (sqrt_sq _ P). rewrite Rpow_mult_distr, sqrt_sq by apply B. ring.
      + intros Z. assert (0 < bw ^ 2)%R by (apply pow_lt; lra). lra.
    - unfold liu_west in Ka. destruct (Rle_dec 0 (1 - a ^ 2)) as [P|]; [|discriminate]. injection Ka as <-. exists (1 - a ^ 2)%R. pose proof (pow2_ge_0 a). split; [lra|]. split.
      + rewrite (G a ((1 - a) * m)%R (sqrt (1 - a ^ 2) * sqrt r)%R); [|intros; unfold centre; fold m; ring|ring|reflexivity]. rewrite Rpow_mult_distr, !sqrt_sq by (apply P || apply B). ring.
      + intros Z. exists a. unfold liu_west. destruct (Rle_dec 0 (1 - a ^ 2)); [|contradiction]. split; [reflexivity|lra]. }
  split; [exact B|]. destruct X as (b & Hb & Eb & Zb). split; [rewrite Eb; nra|]. split; [intros ->; rewrite Eb; ring|]. exists b. auto.
Qed.
Print Assumptions C60_variance.

(** The kernels without shrinkage add the noise variance on top. *)
Theorem C60_unshrunk : forall eps k x w n d E s j, sample_ok x w n d -> noise_ok E -> (exists ms, k = NonShrinking ms) \/ (exists ms l, k = ConstantScale ms l) ->
  jittered_var w n E (fun i => centre eps k x w n i j) s (mean_of x w n j) = (var_of x w n j + s ^ 2)%R.
Proof.
  intros eps k x w n d E s j S N K. pose proof (affine_var E N S 1 0 s j) as A. replace (1 * mean_of x w n j + 0)%R with (mean_of x w n j) in A by ring.
  replace (1 ^ 2 * var_of x w n j + s ^ 2)%R with (var_of x w n j + s ^ 2)%R in A by ring. rewrite <- A. unfold jittered_var. apply total_ext. intros. f_equal. apply (n_ext _ N). intros z.
  destruct K as [[ms ->]|[ms [l ->]]]; cbn; ring.
Qed.
Print Assumptions C60_unshrunk.

(** * The robust variance *)
Lemma cumsum_nth l : forall a k, k < List.length l -> nth k (cumsum_from a l) 0%R = (a + total (S k) (fun i => nth i l 0))%R.
Proof.
  induction l as [|x l IH]; intros a k K; [cbn in K; lia|]. destruct k as [|k]; [cbn; ring|]. cbn [cumsum_from].
  change (nth (S k) ((a + x)%R :: cumsum_from (a + x)%R l) 0%R) with (nth k (cumsum_from (a + x)%R l) 0%R). rewrite IH by (cbn in K; lia). rewrite (total_shift (S k)). cbn [nth]. ring.
Qed.
Lemma cumsum_len l : forall a, List.length (cumsum_from a l) = List.length l.
Proof. induction l; intros; cbn; auto. Qed.
Lemma rsum_perm l l' : Permutation l l' -> rsum l = rsum l'.
Proof. induction 1; cbn; [reflexivity|now f_equal|ring|congruence]. Qed.
Lemma total_prefix f g n k : k < n -> (forall l, l < n -> f l = if l <=? k then g l else 0%R) -> total n f = total (S k) g.
Proof.
  induction n; intros K H; [lia|]. cbn [total]. destruct (Nat.eq_dec k n) as [->|N].
  - rewrite (H n), Nat.leb_refl by lia. cbn [total]. f_equal. apply total_ext. intros i I. rewrite H by lia. now rewrite (proj2 (Nat.leb_le i n)) by lia.
  - rewrite IHn; [|lia|intros; apply H; lia]. rewrite (H n) by lia. rewrite (proj2 (Nat.leb_gt n k)) by lia. cbn [total]. ring.
Qed.
Lemma sorted_nth l : StronglySorted Rle l -> forall i j, i <= j -> j < List.length l -> (nth i l 0 <= nth j l 0)%R.
Proof.
  induction 1 as [|a l S IH F]; intros i j L J; [cbn in J; lia|]. destruct i, j; cbn in *; [lra| |lia|apply IH; lia]. rewrite Forall_forall in F. apply F, nth_In. lia.
Qed.

(** The robust variance is the smaller one of the variance and the squared interquartile range over 1.349, the quartiles
    being the sample values whose cumulative weight is nearest to 1/4 and 3/4. *)
Theorem C60_robust : forall order argmin x w n d j, sample_ok x w n d -> 0 < n -> order_ok order -> argmin_ok argmin -> no_ties x n j ->
  exists q1 q3, quantile_of x w n j (1 / 4) q1 /\ quantile_of x w n j (3 / 4) q3 /\
    robust_var_column order argmin (column x j) w (mean_of x w n j) = Rmin (((q3 - q1) / 1.349) ^ 2) (var_of x w n j).
Proof.
  intros order argmin x w n d j S P O A T. unfold robust_var_column. rewrite (var_eq S). set (c := column x j). set (idx := order c).
  assert (Lc : List.length c = n) by (unfold c, column; rewrite map_length; apply (s_rows _ _ _ _ S)).
  destruct (O c) as [Pm So]. fold idx in Pm, So. rewrite Lc in Pm. assert (Li : List.length idx = n) by (rewrite (Permutation_length Pm); apply seq_length).
  set (sorted := map (fun i => nth i c 0%R) idx) in *. assert (Ls : List.length sorted = n) by (unfold sorted; now rewrite map_length).
  assert (Sn : forall k, k < n -> nth k sorted 0%R = at_ x (nth k idx 0) j).
  { intros k K. unfold sorted. rewrite (nth_indep _ 0%R ((fun i => nth i c 0%R) 0)) by (rewrite map_length; lia). rewrite (map_nth (fun i => nth i c 0%R)). apply column_nth. }
  assert (In_idx : forall k, k < n -> nth k idx 0 < n).
  { intros k K. assert (I : In (nth k idx 0) (seq 0 n)) by (apply (Permutation_in _ Pm), nth_In; lia). apply in_seq in I. lia. }
  set (cum := cumsum_from 0%R (map (fun i => nth i w 0%R) idx)). assert (Lm : List.length cum = n) by (unfold cum; now rewrite cumsum_len, map_length).
  assert (C : forall k, k < n -> nth k cum 0%R = below x w n j (nth k sorted 0%R)).
  { intros k K. unfold cum. rewrite cumsum_nth by (rewrite map_length; lia). rewrite Rplus_0_l. rewrite Sn by exact K. unfold below. set (y := at_ x (nth k idx 0) j).
    set (g := fun i => if Rle_dec (at_ x i j) y then nth i w 0%R else 0%R).
    transitivity (rsum (map g idx)).
    - rewrite (rsum_total idx g 0), Li. symmetry. apply total_prefix; [exact K|]. intros l L. unfold g.
      rewrite (nth_indep (map (fun i => nth i w 0%R) idx) 0%R ((fun i => nth i w 0%R) 0)) by (rewrite map_length; lia). rewrite (map_nth (fun i => nth i w 0%R)).
      destruct (Nat.leb_spec l k) as [Q|Q], Rle_dec as [B|B]; try reflexivity; exfalso.
      + apply B. unfold y. rewrite <- !Sn by lia. apply sorted_nth; auto; lia.
      + assert (E : at_ x (nth l idx 0) j = y).
        { apply Rle_antisym; [exact B|]. unfold y. rewrite <- !Sn by lia. apply sorted_nth; auto; lia. }
        apply T in E; auto. assert (N : NoDup idx) by (apply (Permutation_NoDup (Permutation_sym Pm)), seq_NoDup). apply (NoDup_nth idx 0) in E; auto; lia.
    - rewrite (rsum_perm _ _ (Permutation_map g Pm)). rewrite (rsum_total (seq 0 n) g 0), seq_length. apply total_ext. intros i I. now rewrite seq_nth. }
  assert (G : forall q, let k := argmin (map (fun a => Rabs (a - q)) cum) in quantile_of x w n j q (nth k sorted 0%R)).
  { intros q k. set (f := fun a => Rabs (a - q)) in *. destruct (A (map f cum)) as [A1 A2]; [intros E; apply (f_equal (@List.length R)) in E; rewrite map_length in E; cbn in E; lia|].
    fold k in A1, A2. rewrite map_length, Lm in A1. assert (Fk : nth k (map f cum) 0%R = f (nth k cum 0%R)).
    { rewrite (nth_indep _ 0%R (f 0%R)) by (rewrite map_length; lia). apply map_nth. }
    rewrite Fk in A2. unfold f in A2 at 1. rewrite C in A2 by exact A1. split; [exists (nth k idx 0); split; [now apply In_idx|symmetry; now apply Sn]|].
    intros i I. assert (Ii : In i idx) by (apply (Permutation_in _ (Permutation_sym Pm)), in_seq; lia). destruct (In_nth idx i 0 Ii) as (l & L1 & L2). rewrite Li in L1.
    assert (Q : f (nth l cum 0%R) = Rabs (below x w n j (at_ x i j) - q)) by (unfold f; rewrite C, Sn, L2 by exact L1; reflexivity).
    rewrite <- Q. apply A2. apply in_map, nth_In. lia. }
  do 2 eexists. split; [apply (G (1 / 4)%R)|]. split; [apply (G (3 / 4)%R)|]. fold sorted. fold cum. unfold Rmin.
  match goal with |- (if Rle_dec (((?a - ?b) / _) ^ 2) _ then _ else _) = (if Rle_dec (((?a' - ?b') / _) ^ 2) _ then _ else _) => 
    replace (a' - b')%R with (a - b)%R by reflexivity end. replace 1.349%R with (1349 / 1000)%R by lra. reflexivity.
Qed.
Print Assumptions C60_robust.

(** * A concrete sample *)
Fixpoint insert_index (key : nat -> R) (i : nat) (l : list nat) : list nat :=
  match l with [] => [i] | k :: r => if Rle_dec (key i) (key k) then i :: k :: r else k :: insert_index key i r end.
Definition some_order (l : list R) : list nat := fold_right (insert_index (fun i => nth i l 0%R)) [] (seq 0 (List.length l)).
Lemma insert_index_perm key i l : Permutation (insert_index key i l) (i :: l).
Proof. induction l as [|v l IH]; cbn; [reflexivity|]. destruct Rle_dec; [reflexivity|]. rewrite IH. apply perm_swap. Qed.
Lemma insert_index_sorted key i l : StronglySorted Rle (map key l) -> StronglySorted Rle (map key (insert_index key i l)).
Proof.
  induction l as [|v l IH]; intros S; cbn; [repeat constructor|]. cbn in S. inversion S as [|? ? S' F]; subst. destruct Rle_dec as [L|L].
  - cbn. constructor; [exact S|]. constructor; [exact L|]. eapply Forall_impl; [|exact F]. intros; lra.
  - cbn. constructor; [now apply IH|]. apply Forall_map, Forall_forall. intros k I. apply (Permutation_in _ (insert_index_perm key i l)) in I. destruct I as [<-|I]; [lra|].
    rewrite Forall_map, Forall_forall in F. now apply F.
Qed.
Lemma some_order_ok : order_ok some_order.
Proof.
  intros l. unfold some_order. set (key := fun i => nth i l 0%R). generalize (seq 0 (List.length l)) as s. intros s. split.
  - induction s as [|i s IH]; cbn; [reflexivity|]. now rewrite insert_index_perm, IH.
  - induction s as [|i s IH]; cbn; [constructor|]. now apply insert_index_sorted.
Qed.
Fixpoint some_argmin (l : list R) : nat :=
  match l with [] | [_] => 0 | a :: r => if Rle_dec a (nth (some_argmin r) r 0%R) then 0 else S (some_argmin r) end.
Lemma some_argmin_ok : argmin_ok some_argmin.
Proof.
  intros l. induction l as [|a l IH]; intros N; [now contradiction N|]. destruct l as [|b l]; [cbn; split; [lia|intros c [<-|[]]; lra]|].
  destruct IH as [I1 I2]; [discriminate|]. change (some_argmin (a :: b :: l)) with (if Rle_dec a (nth (some_argmin (b :: l)) (b :: l) 0%R) then 0 else S (some_argmin (b :: l))).
  destruct Rle_dec as [L|L]; (split; [cbn in *; lia|]); intros c Ic.
  - change (a <= c)%R. destruct Ic as [<-|I]; [lra|]. specialize (I2 c I). lra.
  - change (nth (some_argmin (b :: l)) (b :: l) 0 <= c)%R. destruct Ic as [<-|I]; [|now apply I2]. apply Rnot_le_lt in L. left. exact L.
Qed.
Lemma coin_ok : noise_ok (fun f => ((f 1 + f (-1)) / 2)%R).
Proof. constructor; intros; try lra. now rewrite !H. Qed.
Definition three_particles : list (list R) := [[3]; [1]; [2]]%R.
Definition three_weights : list R := [1 / 4; 1 / 4; 1 / 2]%R.
Example C60_nonvacuous : sample_ok three_particles three_weights 3 1 /\ no_ties three_particles 3 0 /\ order_ok some_order /\ argmin_ok some_argmin /\
  noise_ok (fun f => ((f 1 + f (-1)) / 2)%R) /\ liu_west (1 / 8) (1 / 2) = Ok (LiuWest (1 / 8) (1 / 2) (sqrt (1 - (1 / 2) ^ 2))) /\
  scale_fits (Shrinking (1 / 8)) 1 /\ scale_fits (constant_kernel (1 / 8) (ScaleTensor [1%R])) 1.
Proof.
  split; [|split; [|split; [apply some_order_ok|split; [apply some_argmin_ok|split; [apply coin_ok|split; [|split; [exact I|now left]]]]]]].
  - constructor; try reflexivity; unfold three_particles, three_weights; repeat constructor; cbn; lra.
  - intros i i' I I' E. destruct i as [|[|[|]]], i' as [|[|[|]]]; cbn in E; try lia; lra.
  - unfold liu_west. destruct Rle_dec as [|N]; [reflexivity|]. exfalso. apply N. cbn. lra.
Qed.

(** * C78: a constant kernel with a plain number *)
(** ConstantKernel documents a float scale; jittering with one raises. *)
Theorem C78_refuted : forall eps order argmin r x w n d indices noise, sample_ok x w n d -> List.length indices = n -> Forall (fun i => i < n) indices ->
  jitter eps order argmin (constant_kernel eps (ScaleFloat r)) x w indices noise = Raise AttributeError.
Proof.
  intros eps order argmin r x w n d indices noise S L F. unfold jitter, constant_kernel. rewrite (s_rows _ _ _ _ S), L, Nat.eqb_refl. cbn [negb fit].
  rewrite gather_ok by now rewrite (s_rows _ _ _ _ S). reflexivity.
Qed.
Print Assumptions C78_refuted.
(** A tensor is used as it is, down to the minimum. *)
Theorem C78_partial : forall eps order argmin r x w n d indices noise, sample_ok x w n d -> 0 < n -> List.length indices = n -> Forall (fun i => i < n) indices -> noise_shape noise n d ->
  exists out, jitter eps order argmin (constant_kernel eps (ScaleTensor [r])) x w indices noise = Ok out /\ List.length out = n /\
    forall b j, b < n -> j < d -> at_ out b j = (at_ x (nth b indices 0%nat) j + Rmax r eps * at_ noise b j)%R.
Proof.
  intros eps order argmin r x w n d indices noise S P L F N.
  destruct (C60_output eps order argmin (constant_kernel eps (ScaleTensor [r])) x w n d S P (or_introl eq_refl)) as (c & s & Es & Ec & Eo & _).
  destruct (Eo indices noise L F N) as (out & E1 & E2 & _ & E4). exists out. split; [exact E1|]. split; [exact E2|]. intros b j B J. rewrite E4, Ec, (proj2 (Es j J)) by assumption. reflexivity.
Qed.
Print Assumptions C78_partial.
Example C78_nonvacuous : sample_ok three_particles three_weights 3 1 /\ Forall (fun i => i < 3) [2; 2; 0] /\ noise_shape [[1]; [0]; [-1]]%R 3 1.
Proof. split; [apply C60_nonvacuous|]. split; [repeat constructor; lia|]. split; [reflexivity|repeat constructor]. Qed.

(** Summary for the shrinkage kernels, in terms of what [jitter] returns: the output is centre plus noise; the mean is
    preserved; unless the minimum is reached the variance does not grow, and it is preserved if the squared
    interquartile range is not the smaller one. *)
Theorem C60_shrinkage : forall eps order argmin k x w n d, sample_ok x w n d -> 0 < n -> (0 < eps < 1 / 2)%R -> order_ok order -> argmin_ok argmin ->
  (exists ms, k = Shrinking ms) \/ (exists a, liu_west eps a = Ok k) -> exists c s,
  (forall indices noise, List.length indices = n -> Forall (fun i => i < n) indices -> noise_shape noise n d ->
     exists out, jitter eps order argmin k x w indices noise = Ok out /\ List.length out = n /\
       forall b j, b < n -> j < d -> at_ out b j = (c (nth b indices 0%nat) j + s j * at_ noise b j)%R) /\
  forall j E, j < d -> noise_ok E ->
    (min_std k <= s j)%R /\ jittered_mean w n E (fun i => c i j) (s j) = mean_of x w n j /\
    ((min_std k < s j)%R -> (jittered_var w n E (fun i => c i j) (s j) (mean_of x w n j) <= var_of x w n j)%R) /\
    (no_ties x n j -> (min_std k < s j)%R ->
       (forall q1 q3, quantile_of x w n j (1 / 4) q1 -> quantile_of x w n j (3 / 4) q3 -> (var_of x w n j <= ((q3 - q1) / 1.349) ^ 2)%R) ->
       jittered_var w n E (fun i => c i j) (s j) (mean_of x w n j) = var_of x w n j).
Proof.
  intros eps order argmin k x w n d S P Ep O A K.
  assert (Sf : scale_fits k d).
  { destruct K as [[ms ->]|[a Ka]]; [exact I|]. unfold liu_west in Ka. destruct Rle_dec; [|discriminate]. injection Ka as <-. exact I. }
  destruct (C60_output eps order argmin k x w n d S P Sf) as (c & s & Es & Ec & Eo & _). exists (centre eps k x w n), s. split.
  { intros indices noise L F N. destruct (Eo indices noise L F N) as (out & E1 & E2 & _ & E4). exists out. split; [exact E1|]. split; [exact E2|]. intros b j B J. now rewrite E4, Ec. }
  intros j E J N. destruct (Es j J) as [E1 E2]. split; [exact E1|]. split; [now apply (C60_mean eps k x w n d)|].
  assert (M : (min_std k < s j)%R -> s j = fitted_scale eps order argmin k x w n j).
  { intros L. rewrite E2 in L |- *. unfold Rmax in *. destruct Rle_dec; [lra|reflexivity]. }
  destruct (C60_variance eps order argmin k x w n d E j S N Ep K) as (V1 & V2 & V3 & _). split; [intros L; rewrite (M L); exact V2|].
  intros T L Q. rewrite (M L). apply V3. destruct (C60_robust order argmin x w n d j S P O A T) as (q1 & q3 & Q1 & Q3 & ->). apply Rmin_right. now apply Q.
Qed.
Print Assumptions C60_shrinkage.
