(** Lemmas on the proposals of one dimension. *)
From Coq Require Import Reals List Bool Arith Lia Lra.
From Verif.Model Require Import Base Xf Tensor Weights Particle Mode Proposal.
From Verif.Spec Require Import WeightsSpec ProposalSpec.
From Verif.Proofs Require Import WeightsProofs.
Import ListNotations.
Local Open Scope R_scope.

Lemma xdiv_fin x y : y <> 0 -> xdiv (Fin x) (Fin y) = Fin (x / y).
Proof. intros H. cbn. destruct (Req_EM_T y 0); [contradiction|reflexivity]. Qed.
Lemma xlog_pos x : 0 < x -> xlog (Fin x) = Fin (ln x).
Proof. intros H. cbn. unfold rsign. destruct (total_order_T x 0) as [[h|h]|h]; try lra; reflexivity. Qed.
Lemma xsqrt_pos x : 0 <= x -> xsqrt (Fin x) = Fin (sqrt x).
Proof. intros H. cbn. destruct (Rlt_dec x 0); [lra|reflexivity]. Qed.
Lemma xinv_fin x : x <> 0 -> xinv (Fin x) = Fin (/ x).
Proof. intros H. unfold xinv. rewrite xdiv_fin by exact H. f_equal. field. exact H. Qed.

Lemma two_pi_pos : 0 < sqrt (2 * PI).
Proof. apply sqrt_lt_R0. pose proof PI_RGT_0. lra. Qed.

Lemma gauss_pos m s x : 0 < s -> 0 < gauss m s x.
Proof.
  intros H. unfold gauss. apply Rmult_lt_0_compat; [|apply exp_pos]. apply Rinv_0_lt_compat.
  apply Rmult_lt_0_compat; [exact H|apply two_pi_pos].
Qed.

Lemma ln_gauss m s x : 0 < s ->
  ln (gauss m s x) = - ((x - m) * (x - m)) / (2 * (s * s)) - ln s - ln (sqrt (2 * PI)).
Proof.
  intros H. unfold gauss. pose proof two_pi_pos. rewrite ln_mult; [|apply Rinv_0_lt_compat; nra|apply exp_pos].
  rewrite ln_Rinv by nra. rewrite ln_mult by assumption. rewrite ln_exp. lra.
Qed.

Lemma normal_logp_gauss m s x : 0 < s -> normal_logp (Fin m) (Fin s) (Fin x) = Fin (ln (gauss m s x)).
Proof.
  intros H. unfold normal_logp. rewrite ln_gauss by exact H. cbn [xsub xadd xopp xmul].
  rewrite xdiv_fin by nra. rewrite xlog_pos by exact H. reflexivity.
Qed.

Section Conjugate.
  Variables (a s g m y : R).
  Hypotheses (Hs : 0 < s) (Hg : 0 < g).
  Let cov := / (/ (g * g) + a * / (s * s) * a).
  Let loc := cov * (/ (g * g) * m + a * (/ (s * s) * y)).

  Lemma cov_eq : cov = (g * g) * (s * s) / (s * s + a * a * (g * g)).
  Proof.
    unfold cov. pose proof (Rle_0_sqr a) as Ha. unfold Rsqr in Ha.
    assert (0 < s * s) by nra. assert (0 < g * g) by nra. assert (0 < s * s + a * a * (g * g)) by nra.
    field. repeat split; nra.
  Qed.
  Lemma cov_pos : 0 < cov.
  Proof.
    rewrite cov_eq. pose proof (Rle_0_sqr a) as Ha. unfold Rsqr in Ha.
    assert (0 < s * s) by nra. assert (0 < g * g) by nra. apply Rdiv_lt_0_compat; nra.
  Qed.

  Lemma conjugate_weight b x :
    ln (gauss (a * x + b) s (y + b)) + ln (gauss m g x) - ln (gauss loc (sqrt cov) x)
    = ln (gauss (a * m + b) (sqrt (s * s + a * a * (g * g))) (y + b)).
  Proof.
    pose proof (Rle_0_sqr a) as Ha. unfold Rsqr in Ha.
    assert (S2 : 0 < s * s) by nra. assert (G2 : 0 < g * g) by nra.
    set (V := s * s + a * a * (g * g)). assert (HV : 0 < V) by (unfold V; nra).
    pose proof cov_pos as Hc. assert (Hq : 0 < sqrt cov) by now apply sqrt_lt_R0.
    assert (HqV : 0 < sqrt V) by now apply sqrt_lt_R0.
    rewrite !ln_gauss by assumption.
    assert (L : ln s + ln g - ln (sqrt cov) = ln (sqrt V)).
    { rewrite <- ln_mult by assumption. unfold Rminus. rewrite <- ln_Rinv by exact Hq.
      rewrite <- ln_mult by (try (apply Rinv_0_lt_compat); nra). f_equal.
      assert (E : s * g = sqrt cov * sqrt V).
      { rewrite <- sqrt_mult by lra. replace (cov * V) with ((s * g) * (s * g)).
        - symmetry. apply sqrt_square. nra.
        - rewrite cov_eq. fold V. field. lra. }
      rewrite E. field. lra. }
    assert (Q : - ((y + b - (a * x + b)) * (y + b - (a * x + b))) / (2 * (s * s)) + - ((x - m) * (x - m)) / (2 * (g * g))
                - - ((x - loc) * (x - loc)) / (2 * (sqrt cov * sqrt cov))
                = - ((y + b - (a * m + b)) * (y + b - (a * m + b))) / (2 * (sqrt V * sqrt V))).
    { rewrite !sqrt_sqrt by lra. unfold loc. rewrite cov_eq. fold V. unfold V. field. repeat split; nra. }
    lra.
  Qed.
End Conjugate.

Lemma find_optimal_density_fin y m g s a : 0 < s -> 0 < g ->
  let cov := / (/ (g * g) + a * / (s * s) * a) in
  find_optimal_density (Fin y) (Fin m) (xinv (Fin (g * g))) (xinv (Fin (s * s))) (Fin a)
  = (Fin (cov * (/ (g * g) * m + a * (/ (s * s) * y))), Fin (sqrt cov)).
Proof.
  intros Hs Hg cov. assert (s * s <> 0) by nra. assert (g * g <> 0) by nra.
  pose proof (cov_pos a s g Hs Hg) as Hc.
  assert (Hne : / (g * g) + a * / (s * s) * a <> 0).
  { intros E. rewrite E in Hc. rewrite Rinv_0 in Hc. lra. }
  unfold find_optimal_density. rewrite !xinv_fin by assumption. cbn [xmul xadd].
  rewrite xinv_fin by exact Hne. cbn [xmul]. rewrite xsqrt_pos by (apply Rlt_le; exact Hc). reflexivity.
Qed.

(** ** Mode finding *)

Lemma find_mode_first_order grad hess alpha n x std :
  find_mode grad hess alpha false n (Fin x) std = (Fin (x + INR n * alpha), std).
Proof.
  unfold find_mode. induction n as [|n IH]; [cbn; do 2 f_equal; lra|].
  change (Nat.iter (S n) ?f ?a) with (f (Nat.iter n f a)). rewrite IH, S_INR. cbn. do 2 f_equal. lra.
Qed.

Lemma clip0_two h : clip0 (xmul (Fin 2) (Fin h)) = Fin (Rmax (2 * h) 0).
Proof.
  cbn. unfold Rmax. destruct (Rlt_dec (2 * h) 0), (Rle_dec (2 * h) 0); try reflexivity; try lra.
  f_equal. lra.
Qed.

(** The curvature used by both finders. *)
Lemma curvature h : h <> 0 -> - h + Rmax (2 * h) 0 = Rabs h /\ 0 < Rabs h.
Proof.
  intros H. split; [|now apply Rabs_pos_lt]. unfold Rmax, Rabs. destruct (Rle_dec (2 * h) 0), (Rcase_abs h); lra.
Qed.

Lemma find_mode_newton grad hess alpha g h x std : grad (Fin x) = Fin g -> hess (Fin x) = Fin h -> h <> 0 ->
  find_mode_step grad hess alpha true (Fin x, std) = (Fin (x + g / Rabs h), Fin (sqrt (/ Rabs h))).
Proof.
  intros Hg Hh Hn. destruct (curvature h Hn) as [E P]. cbn [find_mode_step]. rewrite Hg, Hh, clip0_two. cbn [xsub xadd xopp].
  replace (h + - Rmax (2 * h) 0) with (- Rabs h) by lra. rewrite xinv_fin by lra. cbn [xopp].
  replace (- / - Rabs h) with (/ Rabs h) by (field; lra). cbn [xmul xadd].
  rewrite xsqrt_pos by (left; now apply Rinv_0_lt_compat). f_equal. f_equal. unfold Rdiv. ring.
Qed.

Lemma legacy_newton grad hess alpha g h x std : grad (Fin x) = Fin g -> hess (Fin x) = Fin h -> h <> 0 ->
  legacy_step grad hess alpha true (Fin x, std) = (Fin (x + g / Rabs h), Fin (sqrt (/ Rabs h))).
Proof.
  intros Hg Hh Hn. destruct (curvature h Hn) as [E P]. cbn [legacy_step]. rewrite Hg, Hh, clip0_two. cbn [xsub xadd xopp].
  rewrite E, xinv_fin by lra. cbn [xmul xadd].
  rewrite xsqrt_pos by (left; now apply Rinv_0_lt_compat). f_equal. f_equal. unfold Rdiv. ring.
Qed.

Lemma legacy_gradient grad hess alpha g x std : grad (Fin x) = Fin g ->
  legacy_step grad hess alpha false (Fin x, std) = (Fin (x + alpha * g), std).
Proof. intros Hg. cbn [legacy_step]. rewrite Hg. reflexivity. Qed.

(** The standard deviation of a second order step is positive whenever it is finite. *)
Lemma step_std h dh : not_infinite h -> not_infinite dh ->
  match xsqrt (xinv (xadd (xopp h) dh)) with Fin r => 0 < r | _ => True end.
Proof.
  intros Hh Hd. destruct h as [h| | |]; try contradiction; [|exact I]. destruct dh as [d| | |]; try contradiction; [|exact I].
  cbn [xopp xadd]. destruct (Req_EM_T (- h + d) 0) as [E|N].
  - rewrite E. unfold xinv, xdiv. destruct (Req_EM_T 0 0); [|lra]. unfold rsign. destruct (total_order_T 1 0) as [[?|?]|?]; cbn; auto.
  - rewrite xinv_fin by exact N. cbn. destruct (Rlt_dec (/ (- h + d)) 0) as [?|L]; [exact I|].
    apply sqrt_lt_R0. destruct (Rtotal_order (- h + d) 0) as [A|[A|A]]; [|lra|now apply Rinv_0_lt_compat].
    apply Rinv_lt_0_compat in A. lra.
Qed.

Lemma clip0_not_infinite h : not_infinite h -> not_infinite (clip0 (xmul (Fin 2) h)).
Proof. destruct h as [h| | |]; cbn; try tauto. intros _. destruct (Rlt_dec (2 * h) 0); exact I. Qed.

Lemma legacy_iter_std grad hess alpha second n m s : (forall x, not_infinite (hess (Fin x))) ->
  match s with Fin r => 0 < r | _ => True end ->
  let (m', s') := Nat.iter n (legacy_step grad hess alpha second) (m, s) in
  xisfinite m' = true -> match s' with Fin r => 0 < r | _ => True end.
Proof.
  intros Hh Hs. induction n as [|n IH]; [intros _; exact Hs|].
  change (Nat.iter (S n) ?f ?a) with (f (Nat.iter n f a)).
  destruct (Nat.iter n _ _) as [m' s']. cbn [legacy_step]. destruct second.
  - intros Hf. destruct m' as [x| | |].
    + apply step_std; [apply Hh|apply clip0_not_infinite, Hh].
    + exfalso. destruct (xmul _ _); discriminate.
    + exfalso. destruct (xmul _ _); discriminate.
    + exfalso. destruct (xmul _ _); discriminate.
  - intros Hf. apply IH. destruct m'; [reflexivity| | |]; destruct (xmul (Fin alpha) _); discriminate.
Qed.

Lemma legacy_proper grad hess alpha second n m s : (forall x, not_infinite (hess (Fin x))) -> proper (m, s) ->
  proper (find_mode_legacy grad hess alpha second n m s).
Proof.
  intros Hh Hp. unfold find_mode_legacy.
  assert (Hs : match s with Fin r => 0 < r | _ => True end) by (destruct Hp as (? & ? & E & ?); now injection E as -> ->).
  pose proof (legacy_iter_std grad hess alpha second n m s Hh Hs) as H.
  destruct (Nat.iter n _ _) as [m' s']. destruct (xisfinite m' && xisfinite s')%bool eqn:E; [|exact Hp].
  apply andb_prop in E. destruct E as [E1 E2]. specialize (H E1). destruct m' as [x| | |]; try discriminate.
  destruct s' as [q| | |]; try discriminate. now exists x, q.
Qed.

(** *** Several dimensions *)
Definition std_ok (s : xf) : Prop := match s with Fin r => 0 < r | _ => True end.

Lemma xminl_not_infinite l : Forall not_infinite l -> l <> [] -> not_infinite (xminl l).
Proof.
  intros H Hn. unfold xminl. assert (E : not_infinite (xmaxl (map xopp l))); [|destruct (xmaxl _); cbn in *; tauto].
  destruct l as [|x l]; [contradiction|]. clear Hn. revert x H. induction l as [|y l IH]; intros x H.
  - inversion H; subst. destruct x; cbn in *; tauto.
  - inversion H as [|? ? Hx Hl]; subst. specialize (IH y Hl). change (map xopp (x :: y :: l)) with (xopp x :: map xopp (y :: l)).
    change (xmaxl (?a :: ?b)) with (xmax a (xmaxl b)). destruct (xmaxl (map xopp (y :: l))) as [q| | |]; cbn in IH; try contradiction.
    + destruct x as [p| | |]; cbn in Hx |- *; try contradiction; [destruct (Rlt_dec (- p) q)|]; exact I.
    + destruct x as [p| | |]; cbn in Hx |- *; try contradiction; exact I.
Qed.

Lemma legacy_vstep_ok grad hess alpha second obsv d m s : finite_hessian grad hess d -> length m = d -> length s = d ->
  Forall std_ok s -> let (m', s') := legacy_vstep grad hess alpha second obsv (m, s) in
  length m' = d /\ length s' = d /\ Forall std_ok s'.
Proof.
  intros HF Hm Hs Ok_. destruct (HF m Hm) as (Lg & Lh & Fh). cbn [legacy_vstep]. destruct second.
  - set (v := if obsv then _ else _).
    assert (Lv : length v = d) by (unfold v; destruct obsv; [now rewrite map_length|exact Lh]).
    assert (Fv : Forall not_infinite v).
    { unfold v. destruct obsv; [|exact Fh]. apply Forall_forall. intros x Hx. apply in_map_iff in Hx. destruct Hx as (y & <- & Hy).
      apply xminl_not_infinite; [exact Fh|]. intros E. rewrite E in Hy. contradiction. }
    clearbody v. split; [|split].
    + rewrite map_length, !combine_length, map_length, combine_length, map_length. lia.
    + rewrite !map_length, combine_length, map_length. lia.
    + apply Forall_forall. intros x Hx. apply in_map_iff in Hx. destruct Hx as (st & <- & Hx).
      apply in_map_iff in Hx. destruct Hx as ([h dh] & <- & Hx). cbn [fst snd]. apply step_std.
      * apply in_combine_l in Hx. rewrite Forall_forall in Fh. now apply Fh.
      * apply in_combine_r in Hx. apply in_map_iff in Hx. destruct Hx as (w & <- & Hw). apply clip0_not_infinite.
        rewrite Forall_forall in Fv. now apply Fv.
  - split; [rewrite map_length, combine_length; lia|]. now split.
Qed.

Lemma legacy_vector_proper grad hess alpha second obsv d n m s : finite_hessian grad hess d -> length m = d -> length s = d ->
  Forall proper (combine m s) -> Forall proper (find_mode_legacy_vector grad hess alpha second obsv n m s).
Proof.
  intros HF Hm Hs Hp. unfold find_mode_legacy_vector.
  assert (Ok_ : Forall std_ok s).
  { apply Forall_forall. intros x Hx. destruct (In_nth s x NaN Hx) as (k & Hk & E). rewrite Forall_forall in Hp.
    destruct (Hp (nth k m NaN, x)) as (a & b & Eq & P).
    - rewrite <- E, <- combine_nth by congruence. apply nth_In. rewrite combine_length. lia.
    - injection Eq as _ ->. exact P. }
  assert (H : let (m', s') := Nat.iter n (legacy_vstep grad hess alpha second obsv) (m, s) in
    length m' = d /\ length s' = d /\ Forall std_ok s').
  { induction n as [|n IH]; [cbn; auto|]. change (Nat.iter (S n) ?f ?a) with (f (Nat.iter n f a)).
    destruct (Nat.iter n _ _) as [m' s']. destruct IH as (A & B & C). now apply legacy_vstep_ok. }
  destruct (Nat.iter n _ _) as [m' s']. destruct H as (A & B & C).
  apply Forall_forall. intros k Hk. apply in_map_iff in Hk. destruct Hk as ([[x q] [x0 q0]] & <- & Hk). unfold legacy_fill.
  destruct (xisfinite x && xisfinite q)%bool eqn:E.
  - apply andb_prop in E. destruct E as [E1 E2]. destruct x as [x| | |]; try discriminate. destruct q as [q| | |]; try discriminate.
    exists x, q. split; [reflexivity|]. apply in_combine_l, in_combine_r in Hk. rewrite Forall_forall in C. exact (C _ Hk).
  - apply in_combine_r in Hk. rewrite Forall_forall in Hp. now apply Hp.
Qed.

(** ** Nested samples *)

Lemma nan_to_num_clean lowest x : clean (nan_to_num lowest x).
Proof. destruct x; exact I. Qed.
Lemma nan_to_num_mass lowest x : cmass (nan_to_num lowest x) = mass lowest x.
Proof. destruct x; reflexivity. Qed.

Lemma xexp_clean x : clean x -> xexp x = Fin (cmass x).
Proof. destruct x; cbn; tauto. Qed.

Lemma nested_weight_spec lowest l : l <> [] ->
  let m := mean_of (map (mass lowest) l) in
  0 <= m /\ nested_weight (map (nan_to_num lowest) l) = if Rlt_dec 0 m then Fin (ln m) else NInf.
Proof.
  intros Hn. cbv zeta. unfold nested_weight, mean_of. rewrite !map_length.
  assert (Hl : 0 < INR (length l)) by (apply lt_0_INR; destruct l; [congruence|cbn; lia]).
  rewrite map_map. rewrite (xsum_map_fin _ (mass lowest)).
  2:{ intros x _. rewrite xexp_clean by apply nan_to_num_clean. now rewrite nan_to_num_mass. }
  assert (Hp : 0 <= Rsum (map (mass lowest) l)).
  { apply Rsum_nonneg. intros x Hx. apply in_map_iff in Hx. destruct Hx as (y & <- & _). unfold mass.
    destruct (level lowest y); [left; apply exp_pos|lra]. }
  rewrite xdiv_fin by lra. set (q := _ / _). assert (Hq : 0 <= q) by (apply Rmult_le_pos; [exact Hp|left; now apply Rinv_0_lt_compat]).
  split; [exact Hq|]. cbn. unfold rsign. destruct (total_order_T q 0) as [[A|A]|A], (Rlt_dec 0 q); try lra; reflexivity.
Qed.

(** The probabilities with which the inner samples are selected. *)
Lemma nested_probs_spec lowest l : l <> [] ->
  (exists x, In x l /\ usable lowest x) ->
  nested_probs (map (nan_to_num lowest) l) = map (fun x => Fin (mass lowest x / Rsum (map (mass lowest) l))) l.
Proof.
  intros Hn (x & Hx & r & Hr). unfold nested_probs.
  assert (Hin : In (Fin r) (map (nan_to_num lowest) l)).
  { apply in_map_iff. exists x. split; [|exact Hx]. destruct x; cbn in *; congruence. }
  rewrite (softmax_clean _ r); [|intros y Hy; apply in_map_iff in Hy; destruct Hy as (z & <- & _); apply nan_to_num_clean|exact Hin].
  rewrite !map_map. apply map_ext_in. intros y Hy. cbn [xisnan]. rewrite nan_to_num_mass. do 3 f_equal.
  apply map_ext. intros z. apply nan_to_num_mass.
Qed.

Lemma nested_probs_dead lowest l : l <> [] -> (forall x, In x l -> ~ usable lowest x) ->
  nested_probs (map (nan_to_num lowest) l) = map (fun _ => Fin (/ INR (length l))) l.
Proof.
  intros Hn Hd. unfold nested_probs. rewrite map_length.
  assert (E : map (nan_to_num lowest) l = map (fun _ => NInf) l).
  { apply map_ext_in. intros x Hx. specialize (Hd x Hx). destruct x; try reflexivity; exfalso; apply Hd; eexists; reflexivity. }
  rewrite E. unfold softmax. assert (Em : xmaxl (map (fun _ => NInf) l) = NInf).
  { destruct (xmaxl_clean (map (fun _ => NInf) l)) as [[A _]|(m & _ & Hin & _)]; [|exact A|].
    - intros y Hy. apply in_map_iff in Hy. destruct Hy as (z & <- & _). exact I.
    - apply in_map_iff in Hin. destruct Hin as (z & Hz & _). discriminate. }
  rewrite Em, !map_map. apply map_ext. intros x. match goal with |- (if xisnan ?a then _ else _) = _ => change (xisnan a) with true end. cbv iota.
  assert (INR (length l) <> 0) by (apply not_0_INR; destruct l; [congruence|cbn; lia]).
  rewrite xdiv_fin by assumption. f_equal. unfold Rdiv. ring.
Qed.
