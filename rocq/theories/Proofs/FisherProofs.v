(** Fisher's identity for a hidden process with finitely many values: the slope of the log likelihood is the posterior mean
    of the slope of the complete log density. *)
From Coq Require Import Reals List Arith Lia Lra.
From Coquelicot Require Import Coquelicot.
From Verif.Spec Require Import WeightsSpec ConvergeSpec BackwardSpec CompleteSpec.
From Verif.Proofs Require Import BackwardProofs BackwardPosterior CompleteProofs.
Import ListNotations.
Local Open Scope nat_scope.
Local Notation length := List.length.

Section Sums.
  Context {X : Type}.
  Variable xs : list X.
  Lemma onward_ext_len dens obs m : forall t past x F G, (forall r, length r = m -> F (rev (x :: past) ++ r) = G (rev (x :: past) ++ r)) ->
    onward xs dens obs m t past x F = onward xs dens obs m t past x G.
  Proof.
    induction m as [|m IH]; intros t past x F G H; cbn [onward].
    - specialize (H [] eq_refl). now rewrite !app_nil_r in H.
    - f_equal. apply map_ext. intros x'. f_equal. apply IH. intros r Hr. specialize (H (x' :: r) ltac:(cbn; now rewrite Hr)).
      change (rev (x' :: x :: past)) with (rev (x :: past) ++ [x']). now rewrite <- !app_assoc.
  Qed.
  Lemma is_derive_sum {A} (l : list A) (f : A -> R -> R) g th : (forall a, In a l -> is_derive (f a) th (g a)) ->
    is_derive (fun v => Rsum (map (fun a => f a v) l)) th (Rsum (map g l)).
  Proof.
    intros H. induction l as [|a l IH]; unfold Rsum in *; cbn [map fold_right].
    - apply (is_derive_const 0%R th).
    - apply (is_derive_plus (f a)); [apply H; now left|]. apply IH. intros; apply H; now right.
  Qed.
  Lemma derive_onward dens obs m th (F : R -> list X -> R) G : (forall p, is_derive (fun v => F v p) th (G p)) ->
    forall t past x, is_derive (fun v => onward xs dens obs m t past x (F v)) th (onward xs dens obs m t past x G).
  Proof.
    intros H. induction m as [|m IH]; intros t past x; cbn [onward]; [apply H|].
    apply is_derive_sum. intros x' _. apply (is_derive_scal (fun v => onward xs dens obs m (S t) (x :: past) x' (F v))). apply IH.
  Qed.
  Lemma derive_paths start dens obs m th (F : R -> list X -> R) G : (forall p, is_derive (fun v => F v p) th (G p)) ->
    is_derive (fun v => over_paths xs start dens obs m (F v)) th (over_paths xs start dens obs m G).
  Proof.
    intros H. apply is_derive_sum. intros x _. apply (is_derive_scal (fun v => onward xs dens obs m 0 [] x (F v))). now apply derive_onward.
  Qed.

  Definition one0 (_ : X) : R := 1%R.
  Definition one1 (_ : nat) (_ : X) : R := 1%R.
  Definition one2 (_ : nat) (_ _ : X) : R := 1%R.
  Lemma onward_pos m F : xs <> [] -> (forall p, (0 < F p)%R) -> forall t past x, (0 < onward xs one2 one1 m t past x F)%R.
  Proof.
    intros Hne H. assert (E : exists a, In a xs) by (destruct xs as [|a l]; [congruence|exists a; now left]). destruct E as [a Ha].
    induction m as [|m IH]; intros t past x; cbn [onward]; [apply H|].
    assert (P : forall y, (0 < one2 t x y * one1 (S t) y * onward xs one2 one1 m (S t) (x :: past) y F)%R) by (intros y; unfold one2 at 1, one1 at 1; rewrite !Rmult_1_l; apply IH).
    apply Rlt_le_trans with (1 := P a). apply (over_one_le xs (fun y => one2 t x y * one1 (S t) y * onward xs one2 one1 m (S t) (x :: past) y F)%R); [|exact Ha].
    intros y _. left. apply P.
  Qed.
  Lemma paths_pos m F : xs <> [] -> (forall p, (0 < F p)%R) -> (0 < over_paths xs one0 one2 one1 m F)%R.
  Proof.
    intros Hne H. assert (E : exists a, In a xs) by (destruct xs as [|a l]; [congruence|exists a; now left]). destruct E as [a Ha]. unfold over_paths.
    assert (P : forall y, (0 < one0 y * one1 0 y * onward xs one2 one1 m 0 [] y F)%R) by (intros y; unfold one0, one1 at 1; rewrite !Rmult_1_l; now apply onward_pos).
    apply Rlt_le_trans with (1 := P a). apply (over_one_le xs (fun y => one0 y * one1 0 y * onward xs one2 one1 m 0 [] y F)%R); [|exact Ha].
    intros y _. left. apply P.
  Qed.

  Lemma onward_affine dens obs m F (a c : R) G : (forall p, F p = (a + c * G p)%R) -> forall t past x,
    onward xs dens obs m t past x F = (a * onward xs dens obs m t past x (fun _ => 1) + c * onward xs dens obs m t past x G)%R.
  Proof.
    intros H. induction m as [|m IH]; intros t past x; cbn [onward]; [rewrite H; ring|].
    change (Rsum (map ?f xs)) with (over xs f). rewrite <- !over_scal, <- over_add. apply over_ext. intros x' _. rewrite IH. ring.
  Qed.
  Lemma paths_affine start dens obs m (a c : R) G F : (forall p, F p = (a + c * G p)%R) ->
    over_paths xs start dens obs m F = (a * over_paths xs start dens obs m (fun _ => 1) + c * over_paths xs start dens obs m G)%R.
  Proof.
    intros H. unfold over_paths. change (Rsum (map ?f xs)) with (over xs f). rewrite <- !over_scal, <- over_add. apply over_ext. intros x _.
    rewrite (onward_affine dens obs m F a c G H). ring.
  Qed.

  Section Joint.
    Variables (start : X -> R) (dens : nat -> X -> X -> R) (obs : nat -> X -> R).
    Hypothesis start_pos : forall x, (0 < start x)%R.
    Hypothesis dens_pos : forall t x x', (0 < dens t x x')%R.
    Hypothesis obs_pos : forall t x, (0 < obs t x)%R.
    Hypothesis obs_start : forall x, obs 0 x = 1%R.
    Fixpoint steps (t : nat) (x : X) (r : list X) : R :=
      match r with [] => 0%R | x' :: r => (ln (dens t x x') + ln (obs (S t) x') + steps (S t) x' r)%R end.
    Lemma onward_joint m F : forall t past x A, (exp A * onward xs dens obs m t past x F)%R =
      onward xs one2 one1 m t past x (fun p => exp (A + steps t x (skipn (S (length past)) p)) * F p)%R.
    Proof.
      induction m as [|m IH]; intros t past x A; cbn [onward].
      - rewrite skipn_all2 by (rewrite rev_length; cbn; lia). cbn [steps]. now rewrite Rplus_0_r.
      - change (Rsum (map ?f xs)) with (over xs f). rewrite <- over_scal. apply over_ext. intros x' _. unfold one2 at 1, one1 at 1. rewrite !Rmult_1_l.
        transitivity (exp (A + ln (dens t x x') + ln (obs (S t) x')) * onward xs dens obs m (S t) (x :: past) x' F)%R.
        + rewrite !exp_plus, !exp_ln by auto. ring.
        + rewrite IH. apply onward_ext_len. intros r Hr. f_equal. f_equal.
          assert (S1 : skipn (S (length past)) (rev (x' :: x :: past) ++ r) = x' :: r).
          { change (rev (x' :: x :: past)) with ((rev (x :: past)) ++ [x']). rewrite <- app_assoc, skipn_app, skipn_all2 by (rewrite rev_length; cbn; lia).
            rewrite rev_length. cbn [length]. rewrite Nat.sub_diag. reflexivity. }
          assert (S2 : skipn (S (length (x :: past))) (rev (x' :: x :: past) ++ r) = r).
          { rewrite skipn_app, skipn_all2 by (rewrite rev_length; cbn; lia). rewrite rev_length. cbn [length]. rewrite Nat.sub_diag. reflexivity. }
          rewrite S1, S2. cbn [steps]. ring.
    Qed.
    Lemma paths_joint m F (C : list X -> R) : (forall x r, length r = m -> C (x :: r) = (ln (start x) + steps 0 x r)%R) ->
      over_paths xs start dens obs m F = over_paths xs one0 one2 one1 m (fun p => exp (C p) * F p)%R.
    Proof.
      intros HC. unfold over_paths. f_equal. apply map_ext. intros x. unfold one0, one1 at 1. rewrite obs_start, !Rmult_1_r, Rmult_1_l.
      rewrite <- (exp_ln (start x)) at 1 by auto. rewrite onward_joint. apply onward_ext_len. intros r Hr. cbn [rev app length skipn]. now rewrite HC.
    Qed.
    Lemma steps_sum d : forall r t x, steps t x r = sum_below (length r) (fun k => ln (dens (t + k) (nth k (x :: r) d) (nth k r d)) + ln (obs (S (t + k)) (nth k r d)))%R.
    Proof.
      induction r as [|x' r IH]; intros t x; [reflexivity|]. cbn [steps]. rewrite IH. unfold sum_below. cbn [length seq map]. rewrite <- seq_shift, map_map. unfold Rsum. cbn [fold_right].
      rewrite Nat.add_0_r. cbn [nth]. f_equal. f_equal. apply map_ext. intros k. now rewrite !Nat.add_succ_r, ?Nat.add_succ_l.
    Qed.
  End Joint.
End Sums.

Lemma nth_indep_map {A} (f : A -> R) l q d d' : q < length l -> nth q (map f l) d = f (nth q l d').
Proof. intros H. rewrite (nth_indep _ d (f d')) by now rewrite map_length. apply map_nth. Qed.

(** * A model that depends on a parameter *)
Section Fisher.
  Context {X Y : Type}.
  Variable xs : list X.
  Variables (start : R -> X -> R) (dens : R -> nat -> X -> X -> R) (g : R -> nat -> X -> Y -> R).
  Variable ys : list Y.
  Hypothesis Hxs : xs <> [].
  Variable d : X.
  Notation seen := (seen g ys).
  Notation positive := (positive_at start dens g).
  Definition cll (th : R) (path : list X) : R := complete (fun x => ln (start th x)) (fun t x x' => ln (dens th t x x')) (fun t x y => ln (g th t x y)) 1 d path ys.
  Lemma seen_pos th : positive th -> forall t x, (0 < seen th t x)%R.
  Proof. intros (_ & _ & P) [|t] x; cbn [seen]; [lra|]. destruct (nth_error ys t); [apply P|lra]. Qed.
  Lemma cll_steps th x r : length r = length ys -> cll th (x :: r) = (ln (start th x) + steps (dens th) (seen th) 0 x r)%R.
  Proof.
    intros Hr. unfold cll, complete. rewrite (steps_sum _ _ d). cbn [length nth]. rewrite Nat.sub_0_r || idtac. replace (S (length r) - 1) with (length r) by lia. rewrite Rplus_assoc. f_equal.
    rewrite sb_add. f_equal. rewrite Hr. unfold sum_below. f_equal.
    assert (G : forall q y, nth_error ys q = Some y -> ln (g th (1 + 1 * q) (nth (1 + 1 * q) (x :: r) d) y) = ln (seen th (S (0 + q)) (nth q r d))).
    { intros q y E. cbn [seen Nat.add]. rewrite E. now replace (1 * q) with q by lia. }
    apply (nth_ext _ _ 0%R 0%R); [rewrite !map_length, combine_length, seq_length; lia|]. rewrite map_length, combine_length, seq_length, Nat.min_id.
    intros q Hq. destruct (nth_error ys q) as [y|] eqn:E; [|apply nth_error_None in E; lia].
    erewrite nth_seq_map by lia. erewrite (nth_indep_map _ _ q 0%R (q, y)) by (rewrite combine_length, seq_length; lia).
    rewrite combine_nth by now rewrite seq_length. rewrite seq_nth by lia. cbn [fst snd]. apply G. erewrite nth_error_nth by exact E. exact E.
  Qed.
  Lemma joint th F : positive th -> over_paths xs (start th) (dens th) (seen th) (length ys) F = over_paths xs one0 one2 one1 (length ys) (fun p => exp (cll th p) * F p)%R.
  Proof.
    intros P. apply paths_joint; [apply P|apply P|now apply seen_pos|reflexivity|]. intros x r Hr. now apply cll_steps.
  Qed.

  Variable th : R.
  Hypothesis near : locally th positive.
  Hypothesis smooth_start : forall x, ex_derive (fun v => start v x) th.
  Hypothesis smooth_dens : forall t x x', ex_derive (fun v => dens v t x x') th.
  Hypothesis smooth_obs : forall t x y, ex_derive (fun v => g v t x y) th.
  Lemma here : positive th. Proof. exact (locally_singleton _ _ near). Qed.
  Lemma ex_derive_ln (f : R -> R) : (0 < f th)%R -> ex_derive f th -> ex_derive (fun v => ln (f v)) th.
  Proof. intros H E. apply (ex_derive_comp ln f); [|exact E]. exists (/ f th)%R. now apply is_derive_ln. Qed.
  Lemma ex_derive_rsum {A} (l : list A) (f : A -> R -> R) : (forall a, In a l -> ex_derive (f a) th) -> ex_derive (fun v => Rsum (map (fun a => f a v) l)) th.
  Proof. intros H. eexists. apply (is_derive_sum l f (fun a => Derive (f a) th)). intros a Ha. apply Derive_correct. now apply H. Qed.
  Lemma cll_derivable p : ex_derive (fun v => cll v p) th.
  Proof.
    destruct here as (P1 & P2 & P3). unfold cll, complete.
    apply (ex_derive_plus (fun v => ln (start v (nth 0 p d)) + sum_below (length p - 1) (fun t => ln (dens v t (nth t p d) (nth (S t) p d))))%R).
    - apply (ex_derive_plus (fun v => ln (start v (nth 0 p d)))); [apply ex_derive_ln; auto|]. unfold sum_below.
      apply (ex_derive_rsum _ (fun t v => ln (dens v t (nth t p d) (nth (S t) p d)))). intros t _. apply ex_derive_ln; auto.
    - apply (ex_derive_rsum _ (fun q v => let time := 1 + 1 * fst q in ln (g v time (nth time p d) (snd q)))). intros q _. cbv zeta. apply ex_derive_ln; auto.
  Qed.
  Definition slope (p : list X) : R := Derive (fun v => cll v p) th.

  Notation Z := (fun v => over_paths xs (start v) (dens v) (seen v) (length ys) (fun _ => 1%R)).
  Lemma total_pos_here : (0 < Z th)%R.
  Proof. cbv beta. rewrite (joint th _ here). apply paths_pos; [exact Hxs|]. intros p. rewrite Rmult_1_r. apply exp_pos. Qed.
  Theorem fisher : is_derive (fun v => ln (Z v)) th (posterior xs (start th) (dens th) (seen th) (length ys) slope).
  Proof.
    assert (D : is_derive Z th (over_paths xs (start th) (dens th) (seen th) (length ys) slope)).
    { apply (is_derive_ext_loc (fun v => over_paths xs one0 one2 one1 (length ys) (fun p => exp (cll v p) * 1)%R)).
      - apply (filter_imp positive); [|exact near]. intros v P. symmetry. now apply joint.
      - rewrite (joint th _ here). apply derive_paths. intros p.
        apply (is_derive_ext (fun v => exp (cll v p))); [intros; now rewrite Rmult_1_r|].
        evar_last; [apply (is_derive_comp exp (fun v => cll v p)); [apply is_derive_exp|apply Derive_correct, cll_derivable]|]. unfold scal; cbn; unfold mult; cbn. unfold slope. ring. }
    evar_last; [apply (is_derive_comp ln Z); [apply is_derive_ln, total_pos_here|exact D]|].
    unfold scal; cbn; unfold mult; cbn. unfold posterior, Rdiv. reflexivity.
  Qed.
End Fisher.
