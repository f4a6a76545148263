(** Property C119 (pyfilter/inference/utils.py:16-39, pyfilter/inference/qmc.py:25-52). *)
From Coq Require Import Reals Lra List Bool Arith Lia.
From Verif.Model Require Import Base Xf Prior Context Qmc.
From Verif.Spec Require Import QmcSpec QuasiNormalSpec.
From Verif.Props Require Import QmcProps.
Import ListNotations.
Local Open Scope list_scope.
Local Open Scope nat_scope.

Lemma normals_drawn eps sobol uniform quantile loc tril shapes : forall e,
  normals eps sobol uniform quantile loc tril e shapes =
    (fst (drawn eps sobol uniform e shapes), map (quasi_normal_row quantile loc tril) (snd (drawn eps sobol uniform e shapes))).
Proof.
  induction shapes as [|s r IH]; intros e; [reflexivity|]. cbn [normals drawn]. unfold quasi_normal. destruct (engine_sample _ _ _ e s) as [e1 x].
  rewrite IH. destruct (drawn _ _ _ e1 r) as [e2 y]. cbn [fst snd]. now rewrite map_app.
Qed.
Lemma drawn_inside eps sobol uniform shapes : (0 < eps < 1)%R -> sobol_ok sobol -> forall e, Forall (Forall (fun p => (0 < p < 1)%R)) (snd (drawn eps sobol uniform e shapes)).
Proof.
  intros E S. induction shapes as [|s r IH]; intros e; [constructor|]. cbn [drawn]. pose proof (C49_inside eps sobol uniform e s E S) as Q.
  destruct (engine_sample _ _ _ e s) as [e1 x]. specialize (IH e1). destruct (drawn _ _ _ e1 r) as [e2 y]. cbn [snd] in *. apply Forall_app. split; [|exact IH].
  eapply Forall_impl; [|exact Q]. intros row. apply Forall_impl. intros p. tauto.
Qed.
Lemma sum_below_ext n f g : (forall j, j < n -> f j = g j) -> sum_below n f = sum_below n g.
Proof. induction n as [|n IH]; intros E; [reflexivity|]. cbn. rewrite IH, E by auto with arith. reflexivity. Qed.
Lemma sum_below_shift n f : sum_below (S n) f = (f 0%nat + sum_below n (fun j => f (S j)))%R.
Proof. induction n as [|n IH]; [cbn; ring|]. change (sum_below (S (S n)) f) with (sum_below (S n) f + f (S n))%R. rewrite IH. cbn. ring. Qed.
Lemma dot_sum a : forall b d, List.length a = d -> List.length b = d -> dot a b = sum_below d (fun j => (nth j a 0 * nth j b 0)%R).
Proof.
  induction a as [|x a IH]; intros [|y b] d A B; cbn in A, B; subst d; try discriminate; [reflexivity|]. rewrite sum_below_shift. cbn [nth].
  rewrite <- (IH b (List.length a)) by congruence. reflexivity.
Qed.
Lemma row_component quantile loc tril probs d i : square_matrix d tril -> List.length loc = d -> List.length probs = d -> i < d ->
  nth i (quasi_normal_row quantile loc tril probs) 0%R = (nth i loc 0 + sum_below d (fun j => nth j (nth i tril []) 0 * nth j (map quantile probs) 0))%R.
Proof.
  intros [T1 T2] L P I. unfold quasi_normal_row. set (f := fun row => dot row (map quantile probs)). set (g := fun p : R * R => (fst p + snd p)%R).
  rewrite (nth_indep (map g _) 0%R (g (0%R, f []))) by (rewrite map_length, combine_length, map_length; lia).
  rewrite (map_nth g), combine_nth by (rewrite map_length; congruence). rewrite (map_nth f). unfold g, f. cbn [fst snd]. f_equal. apply dot_sum; [|now rewrite map_length].
  rewrite Forall_forall in T2. apply T2, nth_In. lia.
Qed.
Lemma row_length quantile loc tril probs d : square_matrix d tril -> List.length loc = d -> List.length (quasi_normal_row quantile loc tril probs) = d.
Proof. intros [T _] L. unfold quasi_normal_row. rewrite map_length, combine_length, map_length. lia. Qed.

(** * C119 *)
(** Over any sequence of calls, the [k]-th sample is the location plus the factor times the quantiles of the [k]-th point of
    the engine, moved towards one half and, with randomisation, shifted by one vector modulo one. *)
Theorem C119_inversion : forall eps sobol uniform cdf quantile d loc tril randomize shapes,
  (0 < eps < 1)%R -> sobol_ok sobol -> (forall d, List.length (uniform d) = d) -> inverts cdf quantile -> square_matrix d tril -> List.length loc = d ->
  let out := snd (normals eps sobol uniform quantile loc tril (new_engine d randomize) shapes) in
  List.length out = list_sum (map prod_list shapes) /\
  forall k, k < List.length out -> List.length (nth k out []) = d /\
  exists z, (forall i, i < d -> nth i (nth k out []) 0%R = (nth i loc 0 + sum_below d (fun j => nth j (nth i tril []) 0 * z j))%R) /\
    forall j, j < d -> exists u, towards_half eps u (cdf (z j)) /\
      if randomize then modulo_one (nth j (sobol d k) 0 + nth j (uniform d) 0)%R u else u = nth j (sobol d k) 0%R.
Proof.
  intros eps sobol uniform cdf quantile d loc tril randomize shapes E S U Q T L out. unfold out. rewrite normals_drawn. cbn [snd]. clear out.
  destruct (C49_points eps sobol uniform d randomize shapes S U) as [C P]. pose proof (drawn_inside eps sobol uniform shapes E S (new_engine d randomize)) as In.
  set (pts := snd (drawn eps sobol uniform (new_engine d randomize) shapes)) in *. cbv zeta in C, P. rewrite map_length. split; [exact C|]. intros k K. destruct (P k K) as [Lk Pk].
  rewrite (nth_indep _ [] (quasi_normal_row quantile loc tril [])) by now rewrite map_length. rewrite (map_nth (quasi_normal_row quantile loc tril)).
  split; [now apply row_length|]. exists (fun j => nth j (map quantile (nth k pts [])) 0%R). split; [intros i I; now apply row_component|].
  intros j J. destruct (Pk j J) as (u & H1 & H2). exists u. split; [|exact H2].
  rewrite (nth_indep (map quantile _) 0%R (quantile 0%R)) by (rewrite map_length; lia). rewrite (map_nth quantile). rewrite Q; [exact H1|].
  rewrite Forall_forall in In. specialize (In (nth k pts []) (nth_In _ _ K)). rewrite Forall_forall in In. apply In, nth_In. lia.
Qed.
Print Assumptions C119_inversion.

(** With a lower triangular factor without zeros on the diagonal, two samples agree only if the points behind them do: no
    two calls, and no two entries of a call, share a sample unless the engine repeats a point. *)
Theorem C119_distinct : forall eps sobol uniform cdf quantile d loc tril randomize shapes,
  (0 < eps < 1)%R -> sobol_ok sobol -> (forall d, List.length (uniform d) = d) -> inverts cdf quantile -> square_matrix d tril -> List.length loc = d -> lower_triangular d tril ->
  let out := snd (normals eps sobol uniform quantile loc tril (new_engine d randomize) shapes) in
  forall k k', k < List.length out -> k' < List.length out -> nth k out [] = nth k' out [] ->
  forall j, j < d -> exists z, (nth j (sobol d k) 0 - nth j (sobol d k') 0)%R = IZR z /\ (randomize = false -> z = 0%Z).
Proof.
  intros eps sobol uniform cdf quantile d loc tril randomize shapes E S U Q T L W out k k' K K' Eq j J.
  destruct (C119_inversion eps sobol uniform cdf quantile d loc tril randomize shapes E S U Q T L) as [_ P]. fold out in P.
  destruct (P k K) as (_ & z & Z & G). destruct (P k' K') as (_ & z' & Z' & G').
  assert (V : forall i, i < d -> z i = z' i).
  { intros i. induction i as [i IH] using (well_founded_induction lt_wf). intros I. specialize (Z i I). specialize (Z' i I). rewrite Eq, Z' in Z. apply Rplus_eq_reg_l in Z.
    destruct (W i 0 I) as [D _]. 
    assert (Sp : forall (y y' : nat -> R) n, n <= d -> (forall m, m < i -> y m = y' m) ->
      (sum_below n (fun m => nth m (nth i tril []) 0 * y m) - sum_below n (fun m => nth m (nth i tril []) 0 * y' m) = if i <? n then nth i (nth i tril []) 0 * (y i - y' i) else 0)%R).
    { intros y y' n. induction n as [|n IHn]; intros N A; [cbn; ring|]. cbn [sum_below]. specialize (IHn ltac:(lia) A). destruct (Nat.lt_trichotomy n i) as [Lt|[->|Gt]].
      - rewrite (A n Lt). destruct (Nat.ltb_spec i n); [lia|]. destruct (Nat.ltb_spec i (Datatypes.S n)); [lia|]. lra.
      - destruct (Nat.ltb_spec i i); [lia|]. destruct (Nat.ltb_spec i (Datatypes.S i)); [|lia]. lra.
      - destruct (W i n I) as [_ W0]. rewrite (W0 Gt). destruct (Nat.ltb_spec i n); [|lia]. destruct (Nat.ltb_spec i (Datatypes.S n)); [|lia]. lra. }
    specialize (Sp z' z d (le_n d)). destruct (Nat.ltb_spec i d); [|lia]. rewrite Z in Sp. 
    assert (Sq : (nth i (nth i tril []) 0 * (z' i - z i) = 0)%R) by (rewrite <- Sp; [ring|intros m M; symmetry; apply IH; lia]).
    apply Rmult_integral in Sq. destruct Sq as [Sq|Sq]; [contradiction|]. lra. }
  destruct (G j J) as (u & G1 & G2). destruct (G' j J) as (u' & G1' & G2'). rewrite (V j J) in G1. unfold towards_half in *.
  assert (u = u') as ->. { apply (Rmult_eq_reg_l (1 - eps)); [|lra]. lra. }
  destruct randomize.
  - destruct G2 as [_ [a A]]. destruct G2' as [_ [b B]]. exists (a - b)%Z. rewrite minus_IZR. split; [lra|discriminate].
  - exists 0%Z. split; [rewrite <- G2, <- G2'; ring|reflexivity].
Qed.
Print Assumptions C119_distinct.

(** The logistic distribution function and a factor with entries below the diagonal. *)
Example C119_nonvacuous : let sobol := fun d k => repeat (/ INR (S k))%R d in
  sobol_ok sobol /\ inverts (fun x => / (1 + exp (- x)))%R (fun p => ln (p / (1 - p)))%R /\ square_matrix 2 [[1; 0]; [3; 2]]%R /\ lower_triangular 2 [[1; 0]; [3; 2]]%R /\
  (0 < 1 / 8 < 1)%R /\ List.length (snd (normals (1 / 8) sobol (repeat (1 / 2)%R) (fun p => ln (p / (1 - p)))%R [5; 7]%R [[1; 0]; [3; 2]]%R (new_engine 2 true) [[1]; [2; 2]])) = 5.
Proof.
  intros sobol. split; [exact (proj1 C49_nonvacuous)|]. split.
  { intros p P. assert (A : (0 < p / (1 - p))%R) by (apply Rdiv_lt_0_compat; lra). rewrite exp_Ropp, exp_ln by exact A. field. split; [lra|]. lra. }
  split; [split; [reflexivity|repeat constructor]|]. split.
  { intros i j I. destruct i as [|[|i]]; [| |lia]; cbn; (split; [lra|]); intros J; [destruct j as [|[|[|j]]]|destruct j as [|[|[|j]]]]; try lia; reflexivity. }
  split; [lra|]. rewrite normals_drawn. cbn [snd]. rewrite map_length. reflexivity.
Qed.
