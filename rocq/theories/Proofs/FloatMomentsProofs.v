(** get_filter_mean_and_variance in floating point arithmetic. *)
From Coq Require Import ZArith Reals List Bool Lia Lra Permutation.
From Flocq Require Import Core.Core IEEE754.BinarySingleNaN.
From Flocq.Prop Require Import Relative.
From Coquelicot Require Import Rcomplements.
From Verif.Model Require Import Base FloatResampling FloatMoments.
From Verif.Spec Require Import WeightsSpec FloatSpec FloatMomentsSpec.
From Verif.Proofs Require Import FloatProofs FloatNormalize FloatLogProofs.
Import ListNotations.
Open Scope R_scope.

Lemma combine_map_snd {A B C} (g : B -> C) (a : list A) b : combine a (map g b) = map (fun p => (fst p, g (snd p))) (combine a b).
Proof. revert b. induction a as [|x a IH]; intros [|y b]; try reflexivity. simpl. now rewrite IH. Qed.
Lemma combine_map_both {A B C D} (f : A -> C) (g : B -> D) a b :
  combine (map f a) (map g b) = map (fun p => (f (fst p), g (snd p))) (combine a b).
Proof. revert b. induction a as [|x a IH]; intros [|y b]; try reflexivity. simpl. now rewrite IH. Qed.
Lemma sum_fsts {A B} (f : A -> R) (a : list A) (b : list B) : length a = length b ->
  Rsum (map (fun p => f (fst p)) (combine a b)) = Rsum (map f a).
Proof.
  unfold Rsum. revert b. induction a as [|x a IH]; intros [|y b] H; try discriminate H; [reflexivity|].
  cbn [combine map fold_right fst]. rewrite IH; [reflexivity|]. now injection H.
Qed.
Lemma sum_abs {A} (f : A -> R) l : Rabs (Rsum (map f l)) <= Rsum (map (fun x => Rabs (f x)) l).
Proof.
  unfold Rsum. induction l as [|x l IH]; cbn [map fold_right]; [rewrite Rabs_R0; lra|].
  eapply Rle_trans; [apply Rabs_triang|]. lra.
Qed.
Lemma sum_eq {A} (f g : A -> R) l : (forall x, In x l -> f x = g x) -> Rsum (map f l) = Rsum (map g l).
Proof. intros H. f_equal. now apply map_ext_in. Qed.

Section Signed.
  Context {prec emax : Z} {Hp : Prec_gt_0 prec} {He : Prec_lt_emax prec emax}.
  Notation float := (binary_float prec emax).
  Notation rnd := (@FloatProofs.rnd prec emax).
  Notation eps := (@FloatProofs.eps prec).
  Notation emin := (SpecFloat.emin prec emax).
  Notation bpow := (bpow radix2).
  Notation size l := (Rsum (map (fun x : float => Rabs (B2R x)) l)).

  Lemma size_pos (l : list float) : 0 <= size l.
  Proof. apply Rsum_nonneg. intros y Hy. apply in_map_iff in Hy. destruct Hy as (x & <- & _). apply Rabs_pos. Qed.

  (** A rounded sum of numbers of either sign. *)
  Lemma added_up_signed l s : added_up l s -> (forall x, In x l -> is_finite x = true) ->
    (1 + eps) ^ length l * size l <= bpow (emax - 1) ->
    is_finite s = true /\ Rabs (B2R s - Rsum (map B2R l)) <= ((1 + eps) ^ length l - 1) * size l /\
    ((forall x, In x l -> 0 <= B2R x) -> 0 <= B2R s).
  Proof.
    pose proof (eps_range (prec := prec)) as Pe.
    induction 1 as [|x|l r a b Ha IHa Hb IHb|l l' a Hperm Ha IHa]; intros Hf Hbig.
    - split; [reflexivity|]. unfold Rsum. simpl. split; [|intros _; lra]. rewrite Rminus_0_r, Rabs_R0. lra.
    - split; [apply Hf; now left|]. split; [|intros H; apply H; now left]. unfold Rsum. simpl. rewrite Rplus_0_r, Rminus_eq_0, Rabs_R0.
      apply Rmult_le_pos; [lra|]. pose proof (Rabs_pos (B2R x)). lra.
    - pose proof (size_pos l) as Pl. pose proof (size_pos r) as Pr.
      rewrite app_length, map_app, Rsum_app in Hbig.
      assert (Ul : (1 + eps) ^ length l * size l <= (1 + eps) ^ (length l + length r) * size l).
      { apply Rmult_le_compat_r; [exact Pl|]. apply pow_up_mono; [exact Pe|lia]. }
      assert (Ur : (1 + eps) ^ length r * size r <= (1 + eps) ^ (length l + length r) * size r).
      { apply Rmult_le_compat_r; [exact Pr|]. apply pow_up_mono; [exact Pe|lia]. }
      pose proof (pow_up_ge eps Pe (length l + length r)) as G.
      assert (Gl : 0 <= (1 + eps) ^ (length l + length r) * size l) by (apply Rmult_le_pos; lra).
      assert (Gr : 0 <= (1 + eps) ^ (length l + length r) * size r) by (apply Rmult_le_pos; lra).
      destruct (IHa ltac:(intros; apply Hf, in_or_app; now left) ltac:(lra)) as (Fa & Ea & Na).
      destruct (IHb ltac:(intros; apply Hf, in_or_app; now right) ltac:(lra)) as (Fb & Eb & Nb).
      pose proof (sum_abs (B2R (prec := prec) (emax := emax)) l) as Al. pose proof (sum_abs (B2R (prec := prec) (emax := emax)) r) as Ar.
      assert (Ba : Rabs (B2R a) <= (1 + eps) ^ length l * size l).
      { apply Rabs_le_between in Ea. apply Rabs_le_between in Al. apply Rabs_le. lra. }
      assert (Bb : Rabs (B2R b) <= (1 + eps) ^ length r * size r).
      { apply Rabs_le_between in Eb. apply Rabs_le_between in Ar. apply Rabs_le. lra. }
      assert (Bab : Rabs (B2R a + B2R b) <= bpow (emax - 1)).
      { eapply Rle_trans; [apply Rabs_triang|]. lra. }
      destruct (fadd_ok a b Fa Fb Bab) as (Fs & Es). unfold fadd in *. rewrite Es. split; [exact Fs|]. split.
      2:{ intros H. apply rnd_nonneg. pose proof (Na ltac:(intros; apply H, in_or_app; now left)). pose proof (Nb ltac:(intros; apply H, in_or_app; now right)). lra. }
      rewrite !map_app, !Rsum_app, app_length. clear Fs Es Bab.
      destruct l as [|x0 l0].
      { simpl in Ea. unfold Rsum in Ea; simpl in Ea. rewrite Rmult_0_r in Ea. rewrite Rminus_0_r in Ea.
        assert (Za : B2R a = 0) by (apply Rabs_le_between in Ea; lra).
        rewrite Za, Rplus_0_l, rnd_id by apply fmt_B2R. cbn [map length Nat.add]. change (Rsum []) with 0. rewrite !Rplus_0_l. exact Eb. }
      destruct r as [|y0 r0].
      { simpl in Eb. unfold Rsum in Eb; simpl in Eb. rewrite Rmult_0_r in Eb. rewrite Rminus_0_r in Eb.
        assert (Zb : B2R b = 0) by (apply Rabs_le_between in Eb; lra).
        rewrite Zb, Rplus_0_r, rnd_id by apply fmt_B2R. change (length (@nil float)) with 0%nat. rewrite Nat.add_0_r. replace (Rsum (map B2R (@nil float))) with 0 by reflexivity. replace (size (@nil float)) with 0 by reflexivity. rewrite !Rplus_0_r. exact Ea. }
      pose proof (rnd_plus (emax := emax) (B2R a) (B2R b) (fmt_B2R a) (fmt_B2R b)) as Hr.
      set (L := x0 :: l0) in *. set (Q := y0 :: r0) in *.
      assert (HL : (1 <= length L)%nat) by (unfold L; simpl; lia). assert (HR : (1 <= length Q)%nat) by (unfold Q; simpl; lia).
      set (mx := (length L + length Q - 1)%nat). replace (length L + length Q)%nat with (S mx) by (unfold mx; lia).
      assert (Vl : (1 + eps) ^ length L * size L <= (1 + eps) ^ mx * size L).
      { apply Rmult_le_compat_r; [exact Pl|]. apply pow_up_mono; [exact Pe|unfold mx; lia]. }
      assert (Vr : (1 + eps) ^ length Q * size Q <= (1 + eps) ^ mx * size Q).
      { apply Rmult_le_compat_r; [exact Pr|]. apply pow_up_mono; [exact Pe|unfold mx; lia]. }
      assert (Hs : eps * Rabs (B2R a + B2R b) <= eps * ((1 + eps) ^ mx * (size L + size Q))).
      { apply Rmult_le_compat_l; [lra|]. eapply Rle_trans; [apply Rabs_triang|]. lra. }
      simpl pow. apply Rabs_le_between in Hr. apply Rabs_le_between in Ea. apply Rabs_le_between in Eb. apply Rabs_le. lra.
    - assert (EL : length l' = length l) by (symmetry; now apply Permutation_length). rewrite EL in *.
      rewrite <- (Rsum_perm (map B2R l) (map B2R l')) by now apply Permutation_map.
      rewrite <- (Rsum_perm (map (fun x : float => Rabs (B2R x)) l) (map (fun x : float => Rabs (B2R x)) l')) in * by now apply Permutation_map.
      destruct (IHa ltac:(intros x Hx; apply Hf; eapply Permutation_in; eassumption) Hbig) as (Fa & Ea & Na).
      split; [exact Fa|]. split; [exact Ea|]. intros H. apply Na. intros x Hx. apply H. eapply Permutation_in; eassumption.
  Qed.

  Lemma added_up_signed_error l s : added_up l s -> (forall x, In x l -> is_finite x = true) ->
    INR (length l) * eps <= / 64 -> 2 * size l <= bpow (emax - 1) ->
    is_finite s = true /\ Rabs (B2R s - Rsum (map B2R l)) <= 2 * INR (length l) * eps * size l /\
    ((forall x, In x l -> 0 <= B2R x) -> 0 <= B2R s).
  Proof.
    intros Hs Hf Hsm Hbig. pose proof (eps_range (prec := prec)) as Pe. pose proof (pow_up_upper eps Pe (length l) ltac:(lra)) as U.
    pose proof (size_pos l) as Pl.
    destruct (added_up_signed l s Hs Hf) as (F & E & N).
    - eapply Rle_trans; [|exact Hbig]. apply Rmult_le_compat_r; lra.
    - split; [exact F|]. split; [|exact N]. eapply Rle_trans; [exact E|]. apply Rmult_le_compat_r; lra.
  Qed.

  (** A rounded product. *)
  Lemma rnd_product z : Rabs (rnd z - z) <= eps * Rabs z + / 2 * bpow emin.
  Proof.
    pose proof (eps_range (prec := prec)) as Pe.
    destruct (relative_error_N_FLT'_ex radix2 emin prec Hp (fun x => negb (Z.even x)) z) as (dd & h & Hd & Hh & _ & E).
    change (rnd z) with (round radix2 (FLT_exp emin prec) ZnearestE z). rewrite E.
    replace (z * (1 + dd) + h - z) with (dd * z + h) by ring. eapply Rle_trans; [apply Rabs_triang|]. rewrite Rabs_mult.
    apply Rplus_le_compat; [|exact Hh]. apply Rmult_le_compat_r; [apply Rabs_pos|]. eapply Rle_trans; [exact Hd|]. rewrite u_ro_eps.
    apply Rle_div_l; [lra|]. assert (0 <= eps * eps) by (apply Rmult_le_pos; lra). lra.
  Qed.
End Signed.

Section Core.
  Context {prec emax : Z} {Hp : Prec_gt_0 prec} {He : Prec_lt_emax prec emax}.
  Notation float := (binary_float prec emax).
  Notation rnd := (@FloatProofs.rnd prec emax).
  Notation eps := (@FloatProofs.eps prec).
  Notation emin := (SpecFloat.emin prec emax).
  Notation bpow := (bpow radix2).
  Hypothesis Hwide : (prec + 3 <= emax)%Z.
  Variable fsum : list float -> float.
  Hypothesis Hsum : adds_up fsum.
  Variables values weights : list float.
  Variable X : R.
  Hypothesis Hlen : length weights = length values.
  Hypothesis Hw : forall c, In c weights -> unit_interval c.
  Hypothesis Hx : forall x, In x values -> is_finite x = true /\ Rabs (B2R x) <= X.
  Hypothesis HX : 1 <= X.
  Hypothesis Hroom : 64 * (X * X) <= bpow (emax - 1).
  Hypothesis Hsmall : INR (length values) * eps <= / 64.

  Let n : R := INR (length values).
  Let tiny : R := n * bpow emin.
  Let ps : list (float * float) := combine weights values.
  Let wt (p : float * float) : R := B2R (fst p).
  Let at_ (p : float * float) : R := B2R (snd p).
  Let W : R := Rsum (map wt ps).
  Hypothesis Htotal : Rabs (W - 1) <= 4 * n * eps.
  Let M : R := Rsum (map (fun p => wt p * Rabs (at_ p)) ps).
  Let mu : R := Rsum (map (fun p => wt p * at_ p) ps).
  Let mh : float := filter_mean fsum values weights.
  Let D : R := Rsum (map (fun p => wt p * ((at_ p - B2R mh) * (at_ p - B2R mh))) ps).

  Lemma in_pairs p : In p ps -> is_finite (fst p) = true /\ 0 <= wt p <= 1 /\ is_finite (snd p) = true /\ Rabs (at_ p) <= X.
  Proof.
    destruct p as (c, x). intros H. pose proof (Hw c (in_combine_l _ _ _ _ H)) as (F & B). destruct (Hx x (in_combine_r _ _ _ _ H)) as (G & C).
    repeat split; try assumption; apply B.
  Qed.
  Lemma length_pairs : INR (length ps) = n.
  Proof. unfold n, ps. now rewrite combine_length, Hlen, Nat.min_id. Qed.
  Lemma n_ge_1 : 1 <= n.
  Proof.
    unfold n. destruct values as [|x l] eqn:E; [|apply (le_INR 1); simpl; lia]. exfalso.
    unfold W, n, ps in Htotal. destruct weights; [|discriminate Hlen]. unfold Rsum in Htotal. simpl in Htotal.
    rewrite Rminus_0_l, Rabs_Ropp, Rabs_R1 in Htotal. lra.
  Qed.
  Lemma eps_n : eps <= n * eps.
  Proof. pose proof n_ge_1. pose proof (eps_range (prec := prec)). rewrite <- (Rmult_1_l eps) at 1. apply Rmult_le_compat_r; lra. Qed.
  Lemma tiny_range : 0 <= tiny <= 1.
  Proof.
    pose proof n_ge_1 as P. unfold tiny. pose proof (bpow_gt_0 radix2 emin) as Pb. split; [apply Rmult_le_pos; lra|].
    apply Rle_trans with (n * eps).
    - apply Rmult_le_compat_l; [lra|]. unfold FloatProofs.eps. apply bpow_le. rewrite emin_eq. pose proof (prec_pos (prec := prec)). lia.
    - fold n in Hsmall. lra.
  Qed.
  Lemma total_range : 15 / 16 <= W <= 17 / 16.
  Proof. fold n in Hsmall. apply Rabs_le_between in Htotal. lra. Qed.
  Lemma size_range : 0 <= M <= 17 / 16 * X.
  Proof.
    pose proof total_range. split.
    - apply Rsum_nonneg. intros y Hy. apply in_map_iff in Hy. destruct Hy as (p & <- & Hpp). destruct (in_pairs p Hpp) as (_ & B & _ & _).
      apply Rmult_le_pos; [lra|apply Rabs_pos].
    - apply Rle_trans with (X * W); [|rewrite Rmult_comm; apply Rmult_le_compat_r; lra]. unfold M, W. rewrite <- sum_scale. apply sum_mono.
      intros p Hpp. destruct (in_pairs p Hpp) as (_ & B & _ & C). rewrite Rmult_comm. apply Rmult_le_compat_r; lra.
  Qed.
  Lemma mean_size : Rabs mu <= M.
  Proof.
    unfold mu, M. eapply Rle_trans; [apply sum_abs|]. apply sum_mono. intros p Hpp. destruct (in_pairs p Hpp) as (_ & B & _).
    rewrite Rabs_mult, (Rabs_pos_eq (wt p)) by lra. lra.
  Qed.
  Lemma top_ge : X <= bpow (emax - 1) / 64.
  Proof. assert (1 * X <= X * X) by (apply Rmult_le_compat_r; lra). lra. Qed.

  Lemma mean_core : is_finite mh = true /\ Rabs (B2R mh - mu) <= 4 * n * eps * M + tiny.
  Proof.
    pose proof n_ge_1 as Pn. pose proof eps_n as En. pose proof (eps_range (prec := prec)) as Pe. pose proof tiny_range as Pt.
    pose proof size_range as PM. pose proof top_ge as PX. pose proof (bpow_gt_0 radix2 emin) as Pb.
    assert (Sm : n * eps <= / 64) by exact Hsmall.
    set (term := fun p : float * float => fmul (fst p) (snd p)).
    assert (T : forall p, In p ps -> is_finite (term p) = true /\ Rabs (B2R (term p) - wt p * at_ p) <= eps * (wt p * Rabs (at_ p)) + / 2 * bpow emin).
    { intros p Hpp. destruct (in_pairs p Hpp) as (F & B & G & C).
      assert (E : Rabs (wt p * at_ p) = wt p * Rabs (at_ p)) by (rewrite Rabs_mult, (Rabs_pos_eq (wt p)); lra).
      assert (U : wt p * Rabs (at_ p) <= 1 * X) by (apply Rmult_le_compat; try lra; apply Rabs_pos).
      destruct (fmul_ok (fst p) (snd p) F G) as (Fm & Em).
      { fold (wt p) (at_ p). lra. }
      fold (wt p) (at_ p) in Em. split; [exact Fm|]. unfold term. rewrite Em, <- E. apply rnd_product. }
    set (l := map term ps).
    assert (Ll : INR (length l) = n) by (unfold l; rewrite map_length; apply length_pairs).
    assert (Sl : Rsum (map (fun x : float => Rabs (B2R x)) l) <= (1 + eps) * M + / 2 * tiny).
    { unfold l. rewrite map_map. eapply Rle_trans.
      - apply sum_mono with (g := fun p => (1 + eps) * (wt p * Rabs (at_ p)) + 0 * wt p + / 2 * bpow emin). intros p Hpp.
        destruct (in_pairs p Hpp) as (_ & B & _ & _). destruct (T p Hpp) as (_ & B2).
        assert (E : Rabs (wt p * at_ p) = wt p * Rabs (at_ p)) by (rewrite Rabs_mult, (Rabs_pos_eq (wt p)); lra).
        pose proof (Rabs_triang (B2R (term p) - wt p * at_ p) (wt p * at_ p)) as Tr.
        replace (B2R (term p) - wt p * at_ p + wt p * at_ p) with (B2R (term p)) in Tr by ring. lra.
      - rewrite sum_affine, length_pairs. fold M. unfold tiny. lra. }
    assert (El : Rabs (Rsum (map B2R l) - mu) <= eps * M + / 2 * tiny).
    { unfold l, mu. rewrite map_map. eapply Rle_trans.
      - apply sum_errors with (h := fun p => eps * (wt p * Rabs (at_ p)) + 0 * wt p + / 2 * bpow emin). intros p Hpp. destruct (T p Hpp) as (_ & B). lra.
      - rewrite sum_affine, length_pairs. fold M. unfold tiny. lra. }
    assert (eM : eps * M <= / 64 * M) by (apply Rmult_le_compat_r; lra).
    assert (Fl : forall x, In x l -> is_finite x = true).
    { intros x H. apply in_map_iff in H. destruct H as (p & <- & Hpp). now apply T. }
    destruct (added_up_signed_error l (fsum l) (Hsum l) Fl) as (Fs & Es & _); [rewrite Ll; lra|lra|].
    change (fsum l) with mh in *. split; [exact Fs|]. rewrite Ll in Es.
    assert (S2 : 2 * n * eps * Rsum (map (fun x : float => Rabs (B2R x)) l) <= 2 * (n * eps) * ((1 + eps) * M + / 2 * tiny)).
    { replace (2 * n * eps) with (2 * (n * eps)) by ring. apply Rmult_le_compat_l; lra. }
    assert (S3 : (n * eps) * (eps * M) <= (n * eps) * (/ 64 * M)) by (apply Rmult_le_compat_l; lra).
    assert (S4 : (n * eps) * tiny <= / 64 * tiny) by (apply Rmult_le_compat_r; lra).
    assert (S5 : eps * M <= (n * eps) * M) by (apply Rmult_le_compat_r; lra).
    assert (S6 : 0 <= n * eps * M) by (apply Rmult_le_pos; lra).
    apply Rabs_le_between in Es. apply Rabs_le_between in El. apply Rabs_le. lra.
  Qed.

  Lemma mean_bound : Rabs (B2R mh) <= 3 * X.
  Proof.
    destruct mean_core as (_ & E). pose proof mean_size as A. pose proof size_range as PM. pose proof tiny_range.
    assert (Sm : n * eps <= / 64) by exact Hsmall.
    assert (n * eps * M <= / 64 * M) by (apply Rmult_le_compat_r; lra).
    apply Rabs_le_between in E. apply Rabs_le_between in A. apply Rabs_le. lra.
  Qed.

  (** One squared distance. *)
  Lemma square_core (x : float) : is_finite x = true -> Rabs (B2R x) <= X ->
    let d := B2R x - B2R mh in let c := fsub x mh in
    is_finite (fmul c c) = true /\ 0 <= B2R (fmul c c) <= 18 * (X * X) /\
    Rabs (B2R (fmul c c) - d * d) <= 4 * eps * (d * d) + / 2 * bpow emin /\ 0 <= d * d <= 16 * (X * X).
  Proof.
    intros F B d c. destruct mean_core as (Fm & _). pose proof mean_bound as Bm. pose proof top_ge as PX.
    pose proof (eps_range (prec := prec)) as Pe. pose proof eps_n as En. assert (Sm : n * eps <= / 64) by exact Hsmall.
    pose proof (bpow_gt_0 radix2 emin) as Pb. pose proof tiny_range as Pt. pose proof n_ge_1 as Pn.
    assert (Hb : bpow emin <= 1).
    { unfold tiny in Pt. assert (1 * bpow emin <= n * bpow emin) by (apply Rmult_le_compat_r; lra). lra. }
    assert (Bd : Rabs d <= 4 * X).
    { unfold d. apply Rabs_le_between in B. apply Rabs_le_between in Bm. apply Rabs_le. lra. }
    destruct (fsub_ok x mh F Fm) as (Fc & Ec); [fold d; lra|]. fold c d in Fc, Ec.
    assert (Rc : Rabs (B2R c - d) <= eps * Rabs d).
    { rewrite Ec. unfold d. change (B2R x - B2R mh) with (B2R x + - B2R mh).
      apply (rnd_plus (emax := emax) (B2R x) (- B2R mh) (fmt_B2R _)). rewrite <- B2R_Bopp. apply fmt_B2R. }
    pose proof (Rabs_pos d) as Pd.
    assert (Dd : d * d = Rabs d * Rabs d) by (rewrite <- Rabs_mult; symmetry; apply Rabs_pos_eq; apply Rle_0_sqr).
    assert (Cc : B2R c * B2R c = Rabs (B2R c) * Rabs (B2R c)) by (rewrite <- Rabs_mult; symmetry; apply Rabs_pos_eq; apply Rle_0_sqr).
    assert (Rq : Rabs (B2R c * B2R c - d * d) <= 2 * eps * (d * d) + eps * eps * (d * d)).
    { replace (B2R c * B2R c - d * d) with (2 * d * (B2R c - d) + (B2R c - d) * (B2R c - d)) by ring.
      eapply Rle_trans; [apply Rabs_triang|]. rewrite !Rabs_mult, (Rabs_pos_eq 2) by lra.
      assert (Rabs (B2R c - d) * Rabs (B2R c - d) <= (eps * Rabs d) * (eps * Rabs d)) by (apply Rmult_le_compat; try apply Rabs_pos; exact Rc).
      assert (2 * Rabs d * Rabs (B2R c - d) <= 2 * Rabs d * (eps * Rabs d)) by (apply Rmult_le_compat_l; lra).
      rewrite Dd. lra. }
    assert (Pd2 : 0 <= d * d) by apply Rle_0_sqr.
    assert (Ud2 : d * d <= 16 * (X * X)).
    { rewrite Dd. apply Rle_trans with ((4 * X) * (4 * X)); [apply Rmult_le_compat; lra|lra]. }
    assert (e1 : eps * (d * d) <= / 64 * (d * d)) by (apply Rmult_le_compat_r; lra).
    assert (e2 : eps * (eps * (d * d)) <= / 64 * (eps * (d * d))) by (apply Rmult_le_compat_r; [apply Rmult_le_pos; lra|lra]).
    assert (Pcc : 0 <= B2R c * B2R c) by apply Rle_0_sqr.
    assert (Ucc : B2R c * B2R c <= (1 + 3 * eps) * (d * d)).
    { apply Rabs_le_between in Rq. lra. }
    destruct (fmul_ok c c Fc Fc) as (Fq & Eq); [rewrite Rabs_pos_eq; lra|].
    pose proof (rnd_product (emax := emax) (B2R c * B2R c)) as Rr. rewrite (Rabs_pos_eq (B2R c * B2R c)) in Rr by exact Pcc. rewrite <- Eq in Rr.
    assert (e3 : eps * (B2R c * B2R c) <= eps * ((1 + 3 * eps) * (d * d))) by (apply Rmult_le_compat_l; lra).
    assert (XX : 1 * 1 <= X * X) by (apply Rmult_le_compat; lra).
    split; [exact Fq|]. split; [split|split].
    - rewrite Eq. now apply rnd_nonneg.
    - apply Rabs_le_between in Rr. lra.
    - apply Rabs_le_between in Rr. apply Rabs_le_between in Rq. apply Rabs_le. lra.
    - split; assumption.
  Qed.

  Lemma spread_range : 0 <= D <= 17 * (X * X).
  Proof.
    pose proof total_range as PW. assert (XX : 1 * 1 <= X * X) by (apply Rmult_le_compat; lra). split.
    - apply Rsum_nonneg. intros y Hy. apply in_map_iff in Hy. destruct Hy as (p & <- & Hpp). destruct (in_pairs p Hpp) as (_ & B & _ & _).
      apply Rmult_le_pos; [lra|apply Rle_0_sqr].
    - apply Rle_trans with (16 * (X * X) * W); [|].
      + unfold D, W. rewrite <- sum_scale. apply sum_mono. intros p Hpp. destruct (in_pairs p Hpp) as (_ & B & F & C).
        destruct (square_core (snd p) F C) as (_ & _ & _ & U). fold (at_ p) in U. rewrite Rmult_comm. apply Rmult_le_compat_r; lra.
      + apply Rle_trans with (16 * (X * X) * (17 / 16)); [apply Rmult_le_compat_l; lra|lra].
  Qed.

  Lemma variance_core : is_finite (filter_variance fsum values weights) = true /\ 0 <= B2R (filter_variance fsum values weights) /\
    Rabs (B2R (filter_variance fsum values weights) - D) <= 8 * n * eps * D + 2 * tiny.
  Proof.
    pose proof n_ge_1 as Pn. pose proof eps_n as En. pose proof (eps_range (prec := prec)) as Pe. pose proof tiny_range as Pt.
    pose proof spread_range as PD. pose proof (bpow_gt_0 radix2 emin) as Pb.
    assert (Sm : n * eps <= / 64) by exact Hsmall. assert (XX : 1 * 1 <= X * X) by (apply Rmult_le_compat; lra).
    set (term := fun p : float * float => fmul (fst p) (fmul (fsub (snd p) mh) (fsub (snd p) mh))).
    set (sq := fun p : float * float => (at_ p - B2R mh) * (at_ p - B2R mh)).
    assert (T : forall p, In p ps -> is_finite (term p) = true /\ 0 <= B2R (term p) /\
      Rabs (B2R (term p) - wt p * sq p) <= 11 / 2 * eps * (wt p * sq p) + 3 / 2 * bpow emin).
    { intros p Hpp. destruct (in_pairs p Hpp) as (F & B & G & C). destruct (square_core (snd p) G C) as (Fq & Rq & Eq & Ud).
      unfold term. set (q := fmul (fsub (snd p) mh) (fsub (snd p) mh)) in *. fold (at_ p) in Eq, Ud. fold (sq p) in Eq, Ud.
      assert (P0 : 0 <= wt p * B2R q) by (apply Rmult_le_pos; lra).
      assert (P1 : wt p * B2R q <= 1 * (18 * (X * X))) by (apply Rmult_le_compat; lra).
      destruct (fmul_ok (fst p) q F Fq) as (Fm & Em).
      { fold (wt p). rewrite Rabs_pos_eq; lra. }
      fold (wt p) in Em. split; [exact Fm|]. rewrite Em. split; [now apply rnd_nonneg|].
      pose proof (rnd_product (emax := emax) (wt p * B2R q)) as Rr. rewrite (Rabs_pos_eq (wt p * B2R q)) in Rr by exact P0.
      assert (Q1 : wt p * Rabs (B2R q - sq p) <= wt p * (4 * eps * sq p + / 2 * bpow emin)) by (apply Rmult_le_compat_l; lra).
      rewrite <- (Rabs_pos_eq (wt p)) in Q1 at 1 by lra. rewrite <- Rabs_mult in Q1.
      assert (Q2 : wt p * bpow emin <= 1 * bpow emin) by (apply Rmult_le_compat_r; lra).
      assert (P2 : 0 <= wt p * sq p) by (apply Rmult_le_pos; lra).
      assert (Q3 : eps * (wt p * sq p) <= / 64 * (wt p * sq p)) by (apply Rmult_le_compat_r; lra).
      assert (Q4 : wt p * B2R q <= 17 / 16 * (wt p * sq p) + / 2 * bpow emin) by (apply Rabs_le_between in Q1; lra).
      assert (Q5 : eps * (wt p * B2R q) <= eps * (17 / 16 * (wt p * sq p) + / 2 * bpow emin)) by (apply Rmult_le_compat_l; lra).
      assert (Q6 : eps * bpow emin <= / 64 * bpow emin) by (apply Rmult_le_compat_r; lra).
      assert (P3 : 0 <= eps * (wt p * sq p)) by (apply Rmult_le_pos; lra).
      apply Rabs_le_between in Rr. apply Rabs_le_between in Q1. apply Rabs_le. lra. }
    set (l := map term ps).
    assert (Ev : filter_variance fsum values weights = fsum l).
    { unfold filter_variance. cbv zeta. fold mh. rewrite combine_map_snd, map_map. reflexivity. }
    assert (Ll : INR (length l) = n) by (unfold l; rewrite map_length; apply length_pairs).
    assert (El : Rabs (Rsum (map B2R l) - D) <= 11 / 2 * eps * D + 3 / 2 * tiny).
    { unfold l, D. fold sq. rewrite map_map. eapply Rle_trans.
      - apply sum_errors with (h := fun p => 11 / 2 * eps * (wt p * sq p) + 0 * wt p + 3 / 2 * bpow emin). intros p Hpp. destruct (T p Hpp) as (_ & _ & B). fold (sq p). lra.
      - rewrite sum_affine, length_pairs. change (Rsum (map (fun p => wt p * sq p) ps)) with D. unfold tiny. fold D. lra. }
    assert (Sl : Rsum (map (fun x : float => Rabs (B2R x)) l) = Rsum (map B2R l)).
    { apply sum_eq. intros x H. apply in_map_iff in H. destruct H as (p & <- & Hpp). apply Rabs_pos_eq. now apply T. }
    assert (Fl : forall x, In x l -> is_finite x = true).
    { intros x H. apply in_map_iff in H. destruct H as (p & <- & Hpp). now apply T. }
    assert (eD : eps * D <= / 64 * D) by (apply Rmult_le_compat_r; lra).
    assert (Ul : Rsum (map B2R l) <= (1 + 11 / 2 * eps) * D + 3 / 2 * tiny) by (apply Rabs_le_between in El; lra).
    destruct (added_up_signed_error l (fsum l) (Hsum l) Fl) as (Fs & Es & Ns); [rewrite Ll; lra|rewrite Sl; lra|].
    rewrite Ev. split; [exact Fs|]. split.
    { apply Ns. intros x H. apply in_map_iff in H. destruct H as (p & <- & Hpp). now apply T. }
    rewrite Ll, Sl in Es.
    assert (S2 : 2 * n * eps * Rsum (map B2R l) <= 2 * (n * eps) * ((1 + 11 / 2 * eps) * D + 3 / 2 * tiny)).
    { replace (2 * n * eps) with (2 * (n * eps)) by ring. apply Rmult_le_compat_l; lra. }
    assert (S3 : (n * eps) * (eps * D) <= (n * eps) * (/ 64 * D)) by (apply Rmult_le_compat_l; lra).
    assert (S4 : (n * eps) * tiny <= / 64 * tiny) by (apply Rmult_le_compat_r; lra).
    assert (S5 : eps * D <= (n * eps) * D) by (apply Rmult_le_compat_r; lra).
    assert (S6 : 0 <= n * eps * D) by (apply Rmult_le_pos; lra).
    apply Rabs_le_between in Es. apply Rabs_le_between in El. apply Rabs_le. lra.
  Qed.
End Core.
