(** Lemmas for C113: the error of an SMC2 fit that rejuvenates when its effective sample size is low. *)
From Coq Require Import Reals List Bool Arith Lia Lra.
From Coquelicot Require Import Rcomplements.
From Verif.Model Require Import Base Xf Weights Pmmh Sequential.
From Verif.Spec Require Import WeightsSpec ParticleSpec ResamplingSpec PmmhSpec SequentialSpec UnbiasedSpec ConvergeSpec StationarySpec ProperSpec RejuvenateSpec ExactSpec FitConvergeSpec.
From Verif.Proofs Require Import WeightsProofs SequentialProofs UnbiasedProofs UnbiasedFilter ConvergeProofs StationaryProofs ExactProofs.
From Verif.Props Require Import WeightsProps PmmhProps SequentialProps SequentialMoves SequentialWeights SequentialResume StationaryProps ProperProps RejuvenateProps.
Import ListNotations.
Local Open Scope nat_scope.

(** * Laws *)
(** The mean square error of a sum of pairwise uncorrelated terms. *)
Lemma pairwise_square {A} (L : law A) (HL : law_ok L) n (phi : nat -> A -> R) m B a : (forall i, i < n -> averages L (phi i) (m i)) ->
  (forall i k, i < k -> k < n -> averages L (fun x => phi i x * phi k x)%R (m i * m k)%R) -> (forall i x, i < n -> supp L x -> (Rabs (phi i x) <= B)%R) ->
  at_most L (fun x => square (sumto n (fun i => a i * phi i x) - sumto n (fun i => a i * m i)))%R (sumto n (fun i => square (a i)) * square B)%R.
Proof.
  intros Hm Hp Hb.
  set (diag i x := (square (a i) * (square B + square (m i)) + - (2 * square (a i) * m i) * phi i x)%R).
  set (cross i k x := (a k * a i * ((phi k x - m k) * (phi i x - m i)))%R).
  exists (fun x => 1 * sumto n (fun i => diag i x) + 2 * sumto n (fun i => sumto i (fun k => cross i k x)))%R,
    (1 * sumto n (fun i => square (a i) * (square B - square (m i))) + 2 * sumto n (fun i => sumto i (fun k => 0)))%R.
  split; [|split].
  - intros x Hx. rewrite sumto_minus, square_sumto, Rmult_1_l. apply Rplus_le_compat.
    + apply sumto_le. intros i Hi. unfold diag. pose proof (square_abs _ _ (Hb i x Hi Hx)) as H.
      pose proof (square_nonneg (a i)) as Ha. unfold square in *. nra.
    + right. f_equal. apply sumto_ext. intros i Hi. apply sumto_ext. intros k Hk. unfold cross. ring.
  - apply averages_lin; [exact HL| |].
    + apply averages_sum; [exact HL|]. intros i Hi. apply in_seq in Hi. unfold diag.
      replace (square (a i) * (square B - square (m i)))%R with (1 * (square (a i) * (square B + square (m i))) + - (2 * square (a i) * m i) * m i)%R by (unfold square; ring).
      apply (averages_ext _ HL (fun x => 1 * (square (a i) * (square B + square (m i))) + - (2 * square (a i) * m i) * phi i x)%R); [intros; ring|].
      apply averages_lin; [exact HL|now apply averages_const|]. apply Hm. lia.
    + apply averages_sum; [exact HL|]. intros i Hi. apply in_seq in Hi. apply averages_sum; [exact HL|]. intros k Hk. apply in_seq in Hk. unfold cross.
      replace 0%R with (a k * a i * 0)%R by ring. apply averages_scal; [exact HL|].
      pose proof (averages_lin L HL 1 1 _ _ _ _ (averages_lin L HL 1 (- m i) _ _ _ _ (Hp k i ltac:(lia) ltac:(lia)) (Hm k ltac:(lia))) (averages_lin L HL (- m k) (m k * m i) _ _ _ _ (Hm i ltac:(lia)) (averages_const L HL 1%R))) as A1.
      cbn beta in A1. refine (eq_rect _ (averages L _) (averages_ext L HL _ _ _ _ A1) _ _); [intros; ring|ring].
  - rewrite (sumto_0 n (fun i => sumto i (fun _ => 0%R))) by (intros; now apply sumto_0).
    rewrite Rmult_1_l, Rmult_0_r, Rplus_0_r, Rmult_comm, <- sumto_scal.
    apply sumto_le. intros i Hi. pose proof (Rmult_le_pos _ _ (square_nonneg (a i)) (square_nonneg (m i))). lra.
Qed.
Lemma sumto_const n x : sumto n (fun _ => x) = (INR n * x)%R.
Proof. induction n as [|n IH]; [unfold sumto, Rsum; cbn; ring|]. rewrite sumto_S, IH, S_INR. ring. Qed.
(** ... of a mean. *)
Lemma pairwise_mean {A} (L : law A) (HL : law_ok L) n (phi : nat -> A -> R) m B : 0 < n -> (forall i, i < n -> averages L (phi i) (m i)) ->
  (forall i k, i < k -> k < n -> averages L (fun x => phi i x * phi k x)%R (m i * m k)%R) -> (forall i x, i < n -> supp L x -> (Rabs (phi i x) <= B)%R) ->
  at_most L (fun x => square (/ INR n * sumto n (fun i => phi i x) - / INR n * sumto n m))%R (square B / INR n)%R.
Proof.
  intros Hn Hm Hp Hb. pose proof (lt_0_INR n Hn) as Pn.
  refine (at_most_weaken L _ _ _ _ _ (pairwise_square L HL n phi m B (fun _ => / INR n)%R Hm Hp Hb) _).
  - intros x Hx. right. rewrite <- !sumto_scal. reflexivity.
  - right. rewrite sumto_const. unfold square. field. lra.
Qed.
(** The uniform numbers of a move. *)
Lemma uniforms_pair B b b' a p q a' p' q' : b < b' -> b' < B -> (0 <= a <= 1)%R -> (0 <= a' <= 1)%R ->
  averages (uniforms B) (fun u => (if Rlt_dec (nth b u 0%R) a then p else q) * (if Rlt_dec (nth b' u 0%R) a' then p' else q'))%R ((a * p + (1 - a) * q) * (a' * p' + (1 - a') * q'))%R.
Proof.
  intros Hb Hb' Ha Ha'. apply averages_image.
  apply (averages_ext _ (independent_ok uniform uniform_ok (fun _ => (/ 2)%R) (fun k => half_uniform k) B) (fun u => (if Rlt_dec (u b) a then p else q) * (if Rlt_dec (u b') a' then p' else q'))%R).
  - intros u _. rewrite (nth_error_nth _ _ _ (nth_error_seq_map u B b ltac:(lia))), (nth_error_nth _ _ _ (nth_error_seq_map u B b' Hb')). reflexivity.
  - apply (independent_two uniform uniform_ok (fun _ => (/ 2)%R) (fun k => half_uniform k) B b b' (fun v => if Rlt_dec v a then p else q) (fun v => if Rlt_dec v a' then p' else q')); try assumption; now apply uniform_below.
Qed.

(** * Bounds over the draws of a fit *)
Section Blocks.
  Context {Q U D : Type} (LQ : law Q) (LU : law U) (L : law D) (HQ : law_ok LQ) (HU : law_ok LU) (HL : law_ok L) (B k : nat) (base : @stream D (list R)) (Pb : possible L (uniforms B) base).
  Notation blk := (@block Q U D).
  Notation amb := (at_most_block LQ LU L B k base).
  Notation ambs := (at_most_blocks LQ LU L B k base).
  Notation bok := (supp (blocks LQ LU L B k base)).
  Lemma block_weaken (f g : blk -> R) c c' : (forall bl, bok bl -> (f bl <= g bl)%R) -> (c <= c')%R -> amb g c -> amb f c'.
  Proof.
    intros Hf Hc (F2 & F1 & H1 & H2 & H3). exists F2, F1. split; [|split; [exact H2|apply (at_most_weaken LQ F1 F1 c); [intros; lra|exact H3|exact Hc]]].
    intros q u Hq Hu. apply (over_most_possible L (uniforms B) k 0 _ (fun m => g (q, (u, m))) base (F2 q u)); [exact Pb| |lra|now apply H1].
    intros m Hm _. apply Hf. split; [exact Hq|]. split; [exact Hu|exact Hm].
  Qed.
  Lemma block_const c : amb (fun _ => c) c.
  Proof.
    exists (fun _ _ => c), (fun _ => c). split; [|split; [intros; now apply at_most_const|now apply at_most_const]].
    intros q u _ _. apply over_most_const; [exact HL|apply uniforms_law|]. intros; lra.
  Qed.
  Lemma block_lin (f g : blk -> R) x y a b : (0 <= a)%R -> (0 <= b)%R -> amb f x -> amb g y -> amb (fun bl => a * f bl + b * g bl)%R (a * x + b * y)%R.
  Proof.
    intros Ha Hb (F2 & F1 & F3 & F4 & F5) (G2 & G1 & G3 & G4 & G5). exists (fun q u => a * F2 q u + b * G2 q u)%R, (fun q => a * F1 q + b * G1 q)%R. split; [|split].
    - intros q u Hq Hu. apply over_most_lin; [exact HL|apply uniforms_law|exact Ha|exact Hb|now apply F3|now apply G3].
    - intros q Hq. apply at_most_lin; auto.
    - now apply at_most_lin.
  Qed.
  Lemma block_sum {Z} (l : list Z) (f : Z -> blk -> R) (g : Z -> R) : (forall z, In z l -> amb (f z) (g z)) -> amb (fun bl => Rsum (map (fun z => f z bl) l)) (Rsum (map g l)).
  Proof.
    induction l as [|z l IH]; intros Hz; [exact (block_const 0%R)|].
    refine (block_weaken _ _ _ _ _ _ (block_lin _ _ _ _ 1 1 ltac:(lra) ltac:(lra) (Hz z (or_introl eq_refl)) (IH (fun x Hx => Hz x (or_intror Hx))))).
    - intros bl _. right. unfold Rsum. cbn [map fold_right]. ring.
    - right. unfold Rsum. cbn [map fold_right]. ring.
  Qed.
  Lemma blocks_weaken n : forall j (f g : (nat -> blk) -> R) w c c', (forall i, bok (w i)) -> (forall w', (forall i, bok (w' i)) -> (forall i, i < j -> w' i = w i) -> (f w' <= g w')%R) -> (c <= c')%R -> ambs n j g w c -> ambs n j f w c'.
  Proof.
    induction n as [|n IH]; intros j f g w c c' Hw Hf Hc Hg.
    - cbn [at_most_blocks] in *. pose proof (Hf w Hw (fun i _ => eq_refl)). lra.
    - destruct Hg as (F & H1 & H2). exists F. split; [|apply (block_weaken F F c c'); [intros; lra|exact Hc|exact H2]].
      intros bl Hb. apply (IH (S j) f g (set_at w j bl) (F bl)); [|intros w' Hw' Hi|lra|now apply H1].
      + intros i. unfold set_at. destruct (i =? j); [exact Hb|apply Hw].
      + apply Hf; [exact Hw'|]. intros i Hij. rewrite Hi by lia. unfold set_at. destruct (Nat.eqb_spec i j); [lia|reflexivity].
  Qed.
  Lemma blocks_const n : forall j (f : (nat -> blk) -> R) w c, (forall i, bok (w i)) -> (forall w', (forall i, bok (w' i)) -> (f w' <= c)%R) -> ambs n j f w c.
  Proof.
    induction n as [|n IH]; intros j f w c Hw Hf; [now apply Hf|]. exists (fun _ => c). split; [|apply block_const]. intros bl Hb. apply IH; [|exact Hf]. intros i. unfold set_at. destruct (i =? j); [exact Hb|apply Hw].
  Qed.
  Lemma blocks_lin n : forall j (f g : (nat -> blk) -> R) w x y a b, (0 <= a)%R -> (0 <= b)%R -> ambs n j f w x -> ambs n j g w y -> ambs n j (fun w' => a * f w' + b * g w')%R w (a * x + b * y)%R.
  Proof.
    induction n as [|n IH]; intros j f g w x y a b Ha Hb Hf Hg.
    - cbn [at_most_blocks] in *. apply Rplus_le_compat; apply Rmult_le_compat_l; assumption.
    - destruct Hf as (F & F1 & F2), Hg as (G & G1 & G2). exists (fun bl => a * F bl + b * G bl)%R. split; [intros bl Hbl; apply IH; auto|now apply block_lin].
  Qed.
  Context {A : Type} (LA : law A) (HA : law_ok LA) {Y : Type} (ys : list Y) (w0 : nat -> blk) (Hw0 : forall i, bok (w0 i)).
  Notation amf := (at_most_fit LA LQ LU L B k ys base w0).
  Lemma fit_weaken (f g : A -> (nat -> blk) -> R) c c' : (forall a w, supp LA a -> (forall i, bok (w i)) -> (f a w <= g a w)%R) -> (c <= c')%R -> amf g c -> amf f c'.
  Proof.
    intros Hf Hc (F & H1 & H2). exists F. split; [|apply (at_most_weaken LA F F c); [intros; lra|exact H2|exact Hc]].
    intros a Ha. apply (blocks_weaken (List.length ys) 0 (f a) (g a) w0 (F a)); [exact Hw0|intros w' Hw' _; now apply Hf|lra|now apply H1].
  Qed.
  Lemma fit_lin (f g : A -> (nat -> blk) -> R) x y a b : (0 <= a)%R -> (0 <= b)%R -> amf f x -> amf g y -> amf (fun z w => a * f z w + b * g z w)%R (a * x + b * y)%R.
  Proof.
    intros Ha Hb (F & F1 & F2) (G & G1 & G2). exists (fun z => a * F z + b * G z)%R. split; [intros z Hz; apply blocks_lin; auto|now apply at_most_lin].
  Qed.
End Blocks.

(** * Moves *)
Section Moves.
  Context {T F D : Type} (L : law D) (HL : law_ok L) (PL : law_pos L) (cand : D -> nat -> T) (filt : D -> nat -> T -> F * xf) (B : nat) (HB : 0 < B) (lp : T -> xf) (lq : T -> R).
  Context (M : measure (T * (F * xf))) (G : (T * (F * xf) -> T * (F * xf) -> R) -> Prop) (H : (T * (F * xf) -> R) -> Prop).
  Notation height := (target lp lq).
  Notation prop := (proposed cand filt).
  Context (SS : same_slots L cand filt B) (Hcl : forall b d z, b < B -> supp L d -> among M z -> among M (prop b d z)) (Hpr : forall z, among M z -> proper (lp (fst z)) /\ proper (snd (snd z))).
  Context (HH : forall b, b < B -> testable M L (prop b) height G H).
  Context (Hpair : forall h z z' b b', H h -> among M z -> among M z' -> b < b' -> b' < B ->
    averages L (fun d => moved height h z (prop b d z) * moved height h z' (prop b' d z'))%R (mean L (fun d => moved height h z (prop 0 d z)) * mean L (fun d => moved height h z' (prop 0 d z')))%R).
  Notation AM := (after_moves L cand filt lp lq 0).
  Lemma height_nonneg (z : T * (F * xf)) : (0 <= height z)%R.
  Proof. apply posterior_nonneg. Qed.
  Lemma moved_bound (h : T * (F * xf) -> R) C z z' : (Rabs (h z) <= C)%R -> (Rabs (h z') <= C)%R -> (Rabs (moved height h z z') <= C)%R.
  Proof.
    intros H1 H2. unfold moved. pose proof (chance_range (height z') (height z) (height_nonneg z') (height_nonneg z)) as X. set (a := chance _ _) in *.
    apply Rabs_le_between in H1. apply Rabs_le_between in H2. apply Rabs_le_between. nra.
  Qed.
  Definition small (h : T * (F * xf) -> R) (C : R) : Prop := forall z, among M z -> (Rabs (h z) <= C)%R.
  Lemma after_small h C : H h -> small h C -> forall n, small (AM n h) C.
  Proof.
    intros Hh Hs. induction n as [|n IH]; [exact Hs|]. intros z Hz.
    change (Rabs (mean L (fun d => moved height (AM n h) z (prop 0 d z))) <= C)%R.
    apply (averages_bound L HL PL (fun d => moved height (AM n h) z (prop 0 d z))).
    - split; [|reflexivity]. apply (test_moved _ _ _ _ _ _ (HH 0 HB)); [|exact Hz]. now apply (after_test L cand filt lp lq 0 M G H (HH 0 HB)).
    - intros d Hd. apply moved_bound; apply IH; [exact Hz|now apply Hcl].
  Qed.
  (** The particles [z b]. *)
  Definition held (ctx : list T) (fs : list (F * xf)) (z : nat -> T * (F * xf)) : Prop :=
    List.length ctx = B /\ List.length fs = B /\ forall b, b < B -> nth_error ctx b = Some (fst (z b)) /\ nth_error fs b = Some (snd (z b)) /\ among M (z b).
  Lemma held_mean h ctx fs z : held ctx fs z -> particle_mean B h ctx fs = (/ INR B * sumto B (fun b => h (z b)))%R.
  Proof.
    intros (_ & _ & Hz). unfold particle_mean, sumto. do 2 f_equal. apply map_ext_in. intros b Hb. apply in_seq in Hb. destruct (Hz b ltac:(lia)) as (E1 & E2 & _).
    unfold particle_value. rewrite E1, E2. now destruct (z b).
  Qed.
  Definition step_to (d : D) (u : list R) (z : nat -> T * (F * xf)) (b : nat) : T * (F * xf) :=
    if Rlt_dec (nth b u 0%R) (chance (height (prop b d (z b))) (height (z b))) then prop b d (z b) else z b.
  Lemma move_held d u ctx fs z : supp L d -> supp (uniforms B) u -> held ctx fs z ->
    let r := fst (move cand filt B lp lq d u ctx fs) in held (positions r) (results r) (step_to d u z).
  Proof.
    intros Hd Hu (L1 & L2 & Hz) r.
    assert (X : forall b, b < B -> _) by exact (fun b Hb => move_chain L cand filt B lp lq b Hb M (fun d z => Hcl b d z Hb) Hpr d u ctx fs (z b) Hd Hu L1 L2 (proj1 (Hz b Hb)) (proj1 (proj2 (Hz b Hb))) (proj2 (proj2 (Hz b Hb)))).
    fold r in X. destruct (X 0 HB) as (C1 & C2 & _). split; [exact C1|]. split; [exact C2|]. intros b Hb. destruct (X b Hb) as (_ & _ & C3 & C4). split; [exact C3|]. split; [exact C4|].
    destruct (Hz b Hb) as (_ & _ & In). unfold step_to. destruct (Rlt_dec _ _); [now apply Hcl|exact In].
  Qed.
  (** The uniform numbers. *)
  Lemma uniforms_error (h : T * (F * xf) -> R) C d z : small h C -> supp L d -> (forall b, b < B -> among M (z b)) ->
    at_most (uniforms B) (fun u => square (/ INR B * sumto B (fun b => h (step_to d u z b)) - / INR B * sumto B (fun b => moved height h (z b) (prop b d (z b)))))%R (square C / INR B)%R.
  Proof.
    intros Hs Hd Hz.
    assert (E : forall b u, h (step_to d u z b) = if Rlt_dec (nth b u 0%R) (chance (height (prop b d (z b))) (height (z b))) then h (prop b d (z b)) else h (z b)) by (intros b u; unfold step_to; now destruct (Rlt_dec _ _)).
    assert (R : forall b, (0 <= chance (height (prop b d (z b))) (height (z b)) <= 1)%R) by (intros b; apply chance_range; apply height_nonneg).
    apply (pairwise_mean (uniforms B) (uniforms_law B) B (fun b u => h (step_to d u z b)) (fun b => moved height h (z b) (prop b d (z b))) C HB).
    - intros b Hb. apply (averages_ext _ (uniforms_law B) (fun u => if Rlt_dec (nth b u 0%R) (chance (height (prop b d (z b))) (height (z b))) then h (prop b d (z b)) else h (z b))); [intros u _; symmetry; apply E|]. now apply uniforms_below.
    - intros b b' Hb Hb'. eapply (averages_ext _ (uniforms_law B)); [intros u _; symmetry; rewrite (E b), (E b'); reflexivity|]. now apply uniforms_pair.
    - intros b u Hb Hu. rewrite E. destruct (Rlt_dec _ _); apply Hs; [apply Hcl; [exact Hb|exact Hd|now apply Hz]|now apply Hz].
  Qed.
  Lemma cands_error h C z : H h -> small h C -> (forall b, b < B -> among M (z b)) ->
    at_most L (fun d => square (/ INR B * sumto B (fun b => moved height h (z b) (prop b d (z b))) - / INR B * sumto B (fun b => mean L (fun d => moved height h (z b) (prop 0 d (z b))))))%R (square C / INR B)%R.
  Proof.
    intros Hh Hs Hz. apply (pairwise_mean L HL B (fun b d => moved height h (z b) (prop b d (z b))) (fun b => mean L (fun d => moved height h (z b) (prop 0 d (z b)))) C HB).
    - intros b Hb. apply (SS b (fun z' => moved height h (z b) z') _ Hb). split; [|reflexivity]. apply (test_moved _ _ _ _ _ _ (HH 0 HB) h Hh (z b)). now apply Hz.
    - intros b b' Hb Hb'. apply Hpair; try assumption; apply Hz; lia.
    - intros b d Hb Hd. apply moved_bound; apply Hs; [now apply Hz|apply Hcl; [exact Hb|exact Hd|now apply Hz]].
  Qed.
  Fixpoint moves_factor (n : nat) : R := match n with 0 => 0%R | S n => (2 * moves_factor n + 8)%R end.
  Lemma moves_factor_nonneg n : (0 <= moves_factor n)%R.
  Proof. induction n as [|n IH]; cbn [moves_factor]; lra. Qed.
  Lemma moves_error h C : H h -> small h C -> forall n i m ctx fs z, held ctx fs z ->
    at_most_over L (uniforms B) n i (fun m => square (particle_mean B h (fst (chain_moves cand filt B lp lq n i m ctx fs)) (snd (chain_moves cand filt B lp lq n i m ctx fs)) - particle_mean B (AM n h) ctx fs))%R m (moves_factor n * (square C / INR B))%R.
  Proof.
    intros Hh Hs. pose proof (lt_0_INR B HB) as PB. induction n as [|n IH]; intros i m ctx fs z Hz.
    - cbn [at_most_over chain_moves fst snd moves_factor]. change (AM 0 h) with h. right. unfold square. ring.
    - set (g := AM n h). assert (Hg : H g) by now apply (after_test L cand filt lp lq 0 M G H (HH 0 HB)). assert (Sg : small g C) by now apply after_small.
      assert (Hzm : forall b, b < B -> among M (z b)) by (intros b Hb; apply (proj2 (proj2 Hz) b Hb)).
      set (mid d := (/ INR B * sumto B (fun b => moved height g (z b) (prop b d (z b))))%R). set (fin := (/ INR B * sumto B (fun b => mean L (fun d => moved height g (z b) (prop 0 d (z b)))))%R).
      assert (Ef : particle_mean B (AM (S n) h) ctx fs = fin) by (rewrite (held_mean _ _ _ z Hz); reflexivity).
      exists (fun d u => 2 * (moves_factor n * (square C / INR B)) + 4 * (square (/ INR B * sumto B (fun b => g (step_to d u z b)) - mid d) + square (mid d - fin)))%R,
        (fun d => 4 * square (mid d - fin) + (2 * (moves_factor n * (square C / INR B)) + 4 * (square C / INR B)))%R. split; [|split].
      + intros d u Hd Hu. pose proof (move_held d u ctx fs z Hd Hu Hz) as Hm. cbv zeta in Hm. set (r := fst (move cand filt B lp lq d u ctx fs)) in *.
        set (e2 := square (/ INR B * sumto B (fun b => g (step_to d u z b)) - fin)%R).
        assert (E2 : (e2 <= 2 * (square (/ INR B * sumto B (fun b => g (step_to d u z b)) - mid d) + square (mid d - fin)))%R).
        { unfold e2. pose proof (square_plus (/ INR B * sumto B (fun b => g (step_to d u z b)) - mid d) (mid d - fin)) as X. match goal with |- (square ?x <= _)%R => match type of X with (square ?y <= _)%R => replace x with y by ring end end. lra. }
        pose proof (over_most_lin L (uniforms B) HL (uniforms_law B) n (S i) _ (fun _ => e2) (put m i (d, u)) _ e2 2 2 ltac:(lra) ltac:(lra) (IH (S i) (put m i (d, u)) (positions r) (results r) _ Hm) (over_most_const L (uniforms B) HL (uniforms_law B) n (S i) (fun _ => e2) (put m i (d, u)) e2 (fun _ _ => Rle_refl _))) as A1.
        refine (over_most_weaken L (uniforms B) n (S i) _ _ _ _ _ _ _ A1); [|lra].
        intros m' Ha. apply agree_put in Ha as [Em _]. cbn [chain_moves]. rewrite Em. cbn [fst snd]. fold r. rewrite Ef. unfold e2. fold g. rewrite (held_mean g _ _ _ Hm).
        match goal with |- (square (?x - ?f) <= 2 * square (?x - ?y) + _)%R => pose proof (square_plus (x - y) (y - f)) as X; replace (x - y + (y - f))%R with (x - f)%R in X by ring; exact X end.
      + intros d Hd. refine (at_most_weaken _ _ _ _ _ _ (at_most_affine (uniforms B) (uniforms_law B) 4 (4 * square (mid d - fin) + 2 * (moves_factor n * (square C / INR B))) _ _ ltac:(lra) (uniforms_error g C d z Sg Hd Hzm)) _); [intros u _; right; unfold mid; ring|right; ring].
      + refine (at_most_weaken _ _ _ _ _ _ (at_most_affine L HL 4 (2 * (moves_factor n * (square C / INR B)) + 4 * (square C / INR B)) _ _ ltac:(lra) (cands_error g C z Hg Sg Hzm)) _); [intros d _; right; unfold mid, fin; ring|cbn [moves_factor]; right; ring].
  Qed.
End Moves.

(** * The program *)
Lemma update_counts {T F Y K} (E : env T F Y K) c n (g : @world T) (s : @sstate F Y) : g_updates (snd (fst (pmmh_update E c n g s))) = S (g_updates g).
Proof.
  unfold pmmh_update. destruct (s_data s) as [data|]; [|reflexivity]. destruct (normalize _ _) as [[p w']|e]; [|reflexivity]. destruct (gather _ _) as [rw|e]; [|reflexivity]. destruct (gather (s_fs s) _) as [fs|e]; [|reflexivity].
  destruct (pmmh_moves _ _ _ _ _ _ _ _ _ _ _ _ _) as [[[[x1 x2] x3] x4] low]. destruct low; [|reflexivity]. unfold increase_states. destruct (_ <? _); reflexivity.
Qed.
Lemma ess_lowest low low' (l : list R) : l <> [] -> get_ess low (map Fin l) false = get_ess low' (map Fin l) false.
Proof. intros Hl. unfold get_ess. now rewrite !(normalize_fin _ l Hl). Qed.

Section Adaptive.
  Context {T F Y K A Q U D : Type}.
  Notation blk := (@block Q U D).
  Context (E : A -> (nat -> blk) -> env T F Y K) (LA : law A) (LQ : law Q) (LU : law U) (L : law D) (HA : law_ok LA) (HQ : law_ok LQ) (HU : law_ok LU) (HL : law_ok L) (PQ : law_pos LQ) (PL : law_pos L).
  Context (rows : A -> list T) (init : A -> nat -> T -> F) (advance : Q -> nat -> T -> Y -> F -> F * xf) (pick : U -> list xf -> list nat)
    (cand : D -> nat -> T) (filt : nat -> D -> nat -> T -> F * xf) (c : smc2_cfg) (B np rnd : nat) (ys : list Y) (lp : T -> xf) (lq : T -> R) (cbs : list callback).
  Context (M : nat -> measure (T * (F * xf))) (G : nat -> (T * (F * xf) -> T * (F * xf) -> R) -> Prop) (H : nat -> (T * (F * xf) -> R) -> Prop).
  Context (TG : targets LA LQ L rows init advance cand filt B (fun _ => true) ys lp lq M G H) (HM : forall j, measure_ok (M j)).
  Context (FP : fair_pick LU pick B) (HB : 0 < B) (Hacc : (c_accept c <= 0)%R) (Hdist : c_dist c = None).
  Notation k := (c_steps c).
  Notation absorbed := (absorbed advance B).
  Notation renewed := (renewed pick cand filt c B lp lq).
  Notation start := (start rows init B).
  Notation good := (good B M).
  Notation V := (V B).
  Notation height := (target lp lq).
  Notation blk_ok := (blk_ok LQ LU L B).
  Lemma targets_any s : targets LA LQ L rows init advance cand filt B s ys lp lq M G H.
  Proof. destruct TG as [T1 T2 T3 T4 T5 T6 T7 T8 T9 T10]. constructor; try assumption; intros; [now apply T7|now apply T8|now apply T9|now apply T10]. Qed.

  (** Whether the particles [p], which have filtered observation [j], are rejuvenated. *)
  Definition decide (j : nat) (p : @pop T F) : bool :=
    match get_ess 0 (map Fin (p_ws p)) false with Ok (Fin e, _) => if Rlt_dec e (c_threshold c (S j) * INR B) then true else false | _ => false end.
  Definition anext (j : nat) (bl : blk) (p : @pop T F) : pop :=
    match nth_error ys j with
    | Some y => let p1 := absorbed (fst bl) y p in if decide j p1 then renewed j (fst (snd bl)) (snd (snd bl)) p1 else p1
    | None => p
    end.
  Fixpoint aafter (j : nat) (a : A) (w : nat -> blk) : pop := match j with 0 => start a | S j => anext j (w j) (aafter j a w) end.
  Lemma good_ne j p : good j p -> p_ws p <> [].
  Proof. intros Gp X. pose proof (gd_ws _ _ _ _ Gp) as X'. rewrite X in X'. cbn in X'. lia. Qed.
  Lemma decide_triggers s j low p : good (S j) p -> s j = decide j p -> triggers c B s j low p.
  Proof.
    intros Gp Es e arg Ee. unfold decide in Es. rewrite (ess_lowest low 0 _ (good_ne _ _ Gp)) in Ee. rewrite Ee in Es. destruct (Rlt_dec _ _) as [C|C]; rewrite Es; lra.
  Qed.

  Section Path.
    Context (a : A) (w : nat -> blk) (Ha : supp LA a) (Hw : forall j, blk_ok (w j)).
    Notation sched := (rejuvenates (E a w) (Plain (SMC2 c)) cbs np rnd (rows a) ys).
    Context (FD : fit_draws_at E init advance pick cand filt B np rnd k sched ys lp lq a w).
    Notation after := (after rows init advance pick cand filt c B sched ys lp lq).
    Notation matches := (matches c np rnd sched ys).
    Lemma start_matches : exists al s, fit_alg (E a w) (Plain (SMC2 c)) cbs (new_alg np rnd) (rows a) (rows a) [] = (al, Ok (s, [])) /\ matches 0 (start a) al s.
    Proof.
      destruct (tg_rows _ _ _ _ _ _ _ _ _ _ _ _ _ _ _ _ TG a Ha) as [Lr _]. pose proof (fa_size _ _ _ _ _ _ _ _ _ _ _ _ _ _ _ _ FD) as EB.
      unfold fit_alg, initialize_alg, new_state. rewrite EB. replace (repeat (Fin 0) B) with (map Fin (repeat 0%R B)) by (clear; induction B as [|n IH]; cbn; [reflexivity|now rewrite IH]).
      destruct (ess_fin (e_lowest (E a w)) (repeat 0%R B)) as (e & Ee & _); [intros X; pose proof (repeat_length 0%R B) as X'; rewrite X in X'; cbn in X'; lia|]. rewrite Ee. cbn [bind keeps_data run].
      eexists _, _. split; [reflexivity|].
      constructor; try reflexivity. cbn [s_fs ExactProofs.start p_fs new_alg a_world g_rnd g_np]. assert (L0 : List.length (init_result (E a w) rnd np (rows a) (rows a)) = B) by (pose proof (init_len (E a w) rnd np (rows a) (rows a)) as X; rewrite EB in X; now apply X).
      apply same_lists; [rewrite L0, map_length, combine_length, seq_length; lia|]. intros b Hb. rewrite L0 in Hb. destruct (nth_some (rows a) b ltac:(lia)) as [t Et].
      rewrite (init_nth (E a w) rnd np (rows a) (rows a) b t t eq_refl Et Et), nth_error_map, <- Lr, (combine_seq_nth _ b t Et). cbn [option_map fst snd]. now rewrite (fa_init _ _ _ _ _ _ _ _ _ _ _ _ _ _ _ _ FD).
    Qed.
    Lemma step_counts j y p al s : nth_error ys j = Some y -> good j p -> matches j p al s ->
      g_updates (a_world (fst (step (E a w) (Plain (SMC2 c)) cbs al y s))) = if decide j (absorbed (fst (w j)) y p) then S (g_updates (a_world al)) else g_updates (a_world al).
    Proof.
      intros Ey Gp [M1 M2 M3 M4 M5 M6 M7 M8]. set (s0 := St (s_w s) (s_fs s) (s_ess s) (Some (firstn j ys ++ [y])) (s_iter s)).
      destruct (absorb_is E LA LQ L rows init advance pick cand filt c B np rnd sched ys lp lq M G H (targets_any sched) HB a w FD j y p s0 (a_world al) Ey (proj1 (Hw j)) Gp M1 M2 M3 M4 M5 M6) as (e & Ee & Ea & _).
      pose proof (absorbed_good LA LQ L rows init advance cand filt B (fun _ => true) ys lp lq M G H TG HB j p (fst (w j)) y Ey (proj1 (Hw j)) Gp) as Gp1. set (p1 := absorbed (fst (w j)) y p) in *.
      assert (NF : forall l, nonfinite (map Fin l) = false) by (induction l as [|x l IH]; [reflexivity|exact IH]).
      unfold decide. rewrite (ess_lowest 0 (e_lowest (E a w)) _ (good_ne _ _ Gp1)), Ee.
      unfold step, step_, base_step. rewrite M7. change (St (s_w s) (s_fs s) (s_ess s) (Some (firstn j ys ++ [y])) (s_iter s)) with s0. rewrite Ea. cbn [s_ess s_w]. rewrite newest_snoc, app_length, (NF (p_ws p1)), orb_false_r.
      cbn [List.length s0 s_ess]. rewrite M8. replace (S j + 1 - 1) with (S j) by lia. rewrite (fa_size _ _ _ _ _ _ _ _ _ _ _ _ _ _ _ _ FD). cbn [xlt]. destruct (Rlt_dec e _) as [C|C].
      - match goal with |- context [pmmh_update ?E' ?c' ?n ?g ?s'] => pose proof (update_counts E' c' n g s') as X; destruct (pmmh_update E' c' n g s') as [[n' g'] r2] end. cbn [fst snd] in X.
        destruct r2 as [r2|e2]; [|exact X]. destruct (run_callbacks _ _ _ _); exact X.
      - cbn [seen_by_callbacks]. destruct (run_callbacks _ _ _ _); reflexivity.
    Qed.
    Lemma path_matches : forall j, j <= List.length ys -> exists al s calls, fit_alg (E a w) (Plain (SMC2 c)) cbs (new_alg np rnd) (rows a) (rows a) (firstn j ys) = (al, Ok (s, calls)) /\
      matches j (after j a w) al s /\ after j a w = aafter j a w /\ forall i y, i < j -> nth_error ys i = Some y -> triggers c B sched i (e_lowest (E a w)) (absorbed (fst (w i)) y (after i a w)).
    Proof.
      induction j as [|j IH]; intros Hj.
      - destruct start_matches as (al & s & E1 & Mt). exists al, s, []. split; [exact E1|]. split; [exact Mt|]. split; [reflexivity|]. intros i y Hi. lia.
      - destruct (IH ltac:(lia)) as (al & s & calls & E1 & Mt & Ea & Tr). destruct (nth_some ys j ltac:(lia)) as [y Ey].
        pose proof (after_good LA LQ LU L rows init advance pick cand filt c B np sched ys lp lq M G H (targets_any sched) FP HB a w Ha Hw j ltac:(lia)) as Gp.
        pose proof (absorbed_good LA LQ L rows init advance cand filt B (fun _ => true) ys lp lq M G H TG HB j _ (fst (w j)) y Ey (proj1 (Hw j)) Gp) as Gp1.
        pose proof (step_counts j y _ al s Ey Gp Mt) as Ct.
        assert (Ef : fst (fit_alg (E a w) (Plain (SMC2 c)) cbs (new_alg np rnd) (rows a) (rows a) (firstn (S j) ys)) = fst (step (E a w) (Plain (SMC2 c)) cbs al y s)).
        { rewrite (firstn_next ys j y Ey), (C58_continue (E a w) (Plain (SMC2 c)) cbs (new_alg np rnd) (rows a) (rows a) (firstn j ys) [y] al s calls E1). cbn [run]. destruct (step (E a w) _ cbs al y s) as [al' [[s' calls']|e]]; reflexivity. }
        assert (Es : sched j = decide j (absorbed (fst (w j)) y (after j a w))).
        { unfold rejuvenates, updates_after. rewrite Ef, Ct, E1. cbn [fst]. destruct (decide _ _); [|now rewrite Nat.eqb_refl]. replace (S (g_updates (a_world al)) =? g_updates (a_world al)) with false by (symmetry; apply Nat.eqb_neq; lia). reflexivity. }
        pose proof (decide_triggers sched j (e_lowest (E a w)) _ Gp1 Es) as Tj.
        destruct (step_matches E LA LQ LU L rows init advance pick cand filt c B np rnd sched ys lp lq M G H (targets_any sched) FP HB Hacc Hdist a w FD j y _ al s cbs Ey (Hw j) Gp Mt Tj) as (al' & s' & calls' & Est & Mt' & _).
        exists al', s', (calls ++ calls'). split; [|split; [exact Mt'|split]].
        + rewrite (firstn_next ys j y Ey), (C58_continue (E a w) (Plain (SMC2 c)) cbs (new_alg np rnd) (rows a) (rows a) (firstn j ys) [y] al s calls E1). cbn [run]. rewrite Est. cbn [bind]. now rewrite app_nil_r.
        + cbn [ExactProofs.after aafter]. rewrite <- Ea. unfold next, anext. rewrite Ey. cbv zeta. now rewrite Es.
        + intros i y' Hi Ey'. destruct (Nat.eq_dec i j) as [->|Ni]; [|apply Tr; [lia|exact Ey']]. rewrite Ey in Ey'. injection Ey' as <-. exact Tj.
    Qed.
    (** The value of a fit, and its final state. *)
    Lemma path_value h : whole_fit (E a w) (Plain (SMC2 c)) cbs np rnd (rows a) ys h = V h (aafter (List.length ys) a w).
    Proof.
      destruct (path_matches (List.length ys) (le_n _)) as (al & s & calls & _ & _ & <- & Tr).
      apply (whole_is E LA LQ LU L rows init advance pick cand filt c B np rnd sched ys lp lq M G H (targets_any sched) FP HB Hacc Hdist a w FD cbs h Ha Hw). intros j y Ey. apply Tr; [now apply in_range with y|exact Ey].
    Qed.
    Lemma path_state : exists al s calls, fit_alg (E a w) (Plain (SMC2 c)) cbs (new_alg np rnd) (rows a) (rows a) ys = (al, Ok (s, calls)) /\
      g_ctx (a_world al) = p_ctx (aafter (List.length ys) a w) /\ s_w s = map Fin (p_ws (aafter (List.length ys) a w)).
    Proof.
      destruct (path_matches (List.length ys) (le_n _)) as (al & s & calls & E1 & [M1 M2 M3 M4 M5 M6 M7 M8] & <- & _). rewrite firstn_all in E1. exists al, s, calls. split; [exact E1|]. now split.
    Qed.
  End Path.

  (** ** One observation *)
  Context (gmax kappa : R) (Hg : (1 <= gmax)%R) (Hk : (0 <= kappa)%R) (SD : separate_draws LA LQ LU L rows init advance pick cand filt B ys lp lq M H gmax kappa).
  Notation AM j := (after_moves L cand (filt (S j)) lp lq 0 k).
  Notation adv := (advanced advance).
  Lemma gp_pos n : (0 < gmax ^ n)%R. Proof. apply pow_lt. lra. Qed.
  Lemma PB : (0 < INR B)%R. Proof. now apply lt_0_INR. Qed.
  Record fine (j : nat) (p : @pop T F) : Prop := {
    fn_good : good j p; fn_z : (0 < p_z p)%R; fn_w : forall b r, nth_error (p_ws p) b = Some r -> (p_z p * exp r <= gmax ^ j)%R
  }.
  Lemma good_held j p : good j p -> exists z, held B (M j) (p_ctx p) (p_fs p) z.
  Proof.
    intros Gp. destruct (slot_nth B M HB j p 0 Gp HB) as (t0 & f0 & r0 & _). exists (fun b => (nth b (p_ctx p) t0, nth b (p_fs p) f0)).
    split; [apply Gp|]. split; [apply Gp|]. intros b Hb. destruct (slot_nth B M HB j p b Gp Hb) as (t & f & r & Et & Ef & _ & _ & In). cbn [fst snd]. rewrite (nth_of _ _ _ t0 Et), (nth_of _ _ _ f0 Ef). auto.
  Qed.
  Lemma start_fine a : supp LA a -> fine 0 (start a).
  Proof.
    intros Ha. constructor; [now apply (start_good LA LQ L rows init advance cand filt B (fun _ => true) ys lp lq M G H TG HB)|cbn; lra|].
    intros b r Er. cbn [ExactProofs.start p_ws p_z pow] in *. apply nth_error_In, repeat_spec in Er. subst r. rewrite exp_0. lra.
  Qed.
  Lemma gain_nonneg q b y (z : T * (F * xf)) : (0 <= gain advance q b y z)%R.
  Proof. unfold gain, mass. destruct (snd _); [left; apply exp_pos|lra|lra|lra]. Qed.
  Lemma absorbed_fine j p q y : nth_error ys j = Some y -> supp LQ q -> fine j p -> fine (S j) (absorbed q y p).
  Proof.
    intros Ey Hq [Gp Pz Pw]. constructor; [now apply (absorbed_good LA LQ L rows init advance cand filt B (fun _ => true) ys lp lq M G H TG HB)|exact Pz|].
    intros b r' Er'. pose proof (absorbed_good LA LQ L rows init advance cand filt B (fun _ => true) ys lp lq M G H TG HB j p q y Ey Hq Gp) as Gp1.
    assert (Hb : b < B) by (rewrite <- (gd_ws _ _ _ _ Gp1); now apply in_range with r'). destruct (absorbed_nth advance B M HB j p q y b Gp Hb) as (t & f & r & Et & Ef & Er & Es & Ew & In).
    rewrite Ew in Er'. injection Er' as <-. cbn [ExactProofs.absorbed p_z]. destruct (tg_among _ _ _ _ _ _ _ _ _ _ _ _ _ _ _ _ TG j y (t, f) q b Ey In Hq Hb) as [_ Fi]. cbn [fst snd] in Fi.
    pose proof (sd_gain _ _ _ _ _ _ _ _ _ _ _ _ _ _ _ _ _ _ SD j y (t, f) q b Ey In Hq Hb) as Gb. unfold gain in Gb. cbn [fst snd] in Gb. rewrite (mass_num _ Fi) in Gb. rewrite exp_plus. specialize (Pw b r Er).
    pose proof (exp_pos r). pose proof (exp_pos (num (snd (advance q b t y (fst f))))). assert (0 <= p_z p * exp r)%R by (apply Rmult_le_pos; lra). pose proof (gp_pos j). cbn [pow]. rewrite <- Rmult_assoc.
    apply Rle_trans with (gmax ^ j * exp (num (snd (advance q b t y (fst f)))))%R; [apply Rmult_le_compat_r; lra|]. rewrite (Rmult_comm gmax). apply Rmult_le_compat_l; lra.
  Qed.
  Definition zw (p : @pop T F) : R := (p_z p * mean_weight B (p_ws p))%R.
  Lemma zw_range j p : fine j p -> (0 < zw p <= gmax ^ j)%R.
  Proof.
    intros [Gp Pz Pw]. pose proof PB as PB'. unfold zw, mean_weight. assert (X : Rsum (map exp (p_ws p)) = sumto B (fun b => exp (nth b (p_ws p) 0%R))).
    { rewrite (Rsum_nth (map exp (p_ws p))), map_length, (gd_ws _ _ _ _ Gp). apply sumto_ext. intros b Hb. destruct (slot_nth B M HB j p b Gp Hb) as (t & f & r & _ & _ & Er & _). rewrite (nth_of _ _ _ 0%R Er). apply nth_of. now rewrite nth_error_map, Er. }
    assert (Pi : (0 < / INR B)%R) by now apply Rinv_0_lt_compat. split.
    { apply Rmult_lt_0_compat; [exact Pz|]. apply Rmult_lt_0_compat; [exact Pi|]. apply sum_exp_pos. exact (good_ne j p Gp). }
    rewrite X. replace (p_z p * (/ INR B * sumto B (fun b => exp (nth b (p_ws p) 0))))%R with (/ INR B * sumto B (fun b => p_z p * exp (nth b (p_ws p) 0)))%R by (rewrite sumto_scal; ring).
    apply Rle_trans with (/ INR B * sumto B (fun _ => gmax ^ j))%R; [|rewrite sumto_const; right; field; lra]. apply Rmult_le_compat_l; [lra|]. apply sumto_le. intros b Hb.
      destruct (slot_nth B M HB j p b Gp Hb) as (t & f & r & _ & _ & Er & _). rewrite (nth_of _ _ _ 0%R Er). now apply (Pw b).
  Qed.
  Lemma renewed_fine j p u m : supp LU u -> possible L (uniforms B) m -> fine (S j) p -> fine (S j) (renewed j u m p).
  Proof.
    intros Hu Pm Fp. pose proof (zw_range (S j) p Fp) as Z. destruct Fp as [Gp Pz Pw]. constructor.
    - apply (renewed_good LA LQ LU L rows init advance pick cand filt c B np (fun _ => true) ys lp lq M G H TG FP HB); auto.
    - destruct (renewed_is (Y := Y) LU pick cand filt c B np lp lq M FP HB (S j) p u m Gp Hu) as (rw & fs & _ & _ & _ & _ & _ & ->). cbn [p_z]. apply Z.
    - intros b r. destruct (renewed_is (Y := Y) LU pick cand filt c B np lp lq M FP HB (S j) p u m Gp Hu) as (rw & fs & _ & _ & _ & _ & _ & ->). cbn [p_z p_ws]. intros Er. apply nth_error_In, repeat_spec in Er. subst r. rewrite exp_0, Rmult_1_r. apply Z.
  Qed.
  Lemma anext_fine j p bl : j < List.length ys -> blk_ok bl -> fine j p -> fine (S j) (anext j bl p).
  Proof.
    intros Hj (Hq & Hu & Pm) Fp. destruct (nth_some ys j Hj) as [y Ey]. unfold anext. rewrite Ey. cbv zeta. pose proof (absorbed_fine j p (fst bl) y Ey Hq Fp) as F1. destruct (decide _ _); [now apply renewed_fine|exact F1].
  Qed.
  Lemma V_z h p z j : held B (M j) (p_ctx p) (p_fs p) z -> V h p = sumto B (fun b => p_z p / INR B * exp (nth b (p_ws p) 0) * h (z b))%R.
  Proof.
    intros (_ & _ & Hz). unfold ExactProofs.V, weights_sum. change (p_z p * (/ INR B * sumto B (fun b => exp (nth b (p_ws p) 0) * particle_value h (p_ctx p) (p_fs p) b)) = sumto B (fun b => p_z p / INR B * exp (nth b (p_ws p) 0) * h (z b)))%R.
    rewrite <- !sumto_scal. apply sumto_ext. intros b Hb. destruct (Hz b Hb) as (E1 & E2 & _). unfold particle_value. rewrite E1, E2. unfold Rdiv. destruct (z b). cbn [fst snd]. ring.
  Qed.
  (** The filters. *)
  Lemma absorbed_error j p y f C : nth_error ys j = Some y -> fine j p -> H (S j) f -> small (M (S j)) f C -> (0 <= C)%R ->
    at_most LQ (fun q => square (V f (absorbed q y p) - V (future LQ advance y f) p))%R (square (gmax ^ S j) * (square C / INR B))%R.
  Proof.
    intros Ey Fp Hf Sf PC. pose proof Fp as [Gp Pz Pw]. pose proof PB as PB'. destruct (good_held j p Gp) as [z Hz].
    set (a b := (p_z p / INR B * exp (nth b (p_ws p) 0))%R). set (phi b q := (gain advance q b y (z b) * f (adv q b y (z b)))%R).
    assert (Hzm : forall b, b < B -> among (M j) (z b)) by (intros b Hb; apply (proj2 (proj2 Hz) b Hb)).
    destruct (tg_test _ _ _ _ _ _ _ _ _ _ _ _ _ _ _ _ TG j y f Ey Hf) as [_ Te].
    refine (at_most_weaken LQ _ _ _ _ _ (pairwise_square LQ HQ B phi (fun b => future LQ advance y f (z b)) (gmax * C) a _ _ _) _).
    - intros q Hq. right. f_equal. f_equal; [|now rewrite (V_z _ p z j Hz)].
      unfold ExactProofs.V, weights_sum. cbn [ExactProofs.absorbed p_z p_ctx].
      change (p_z p * (/ INR B * sumto B (fun b => exp (nth b (p_ws (absorbed q y p)) 0) * particle_value f (p_ctx p) (p_fs (absorbed q y p)) b)) = sumto B (fun b => a b * phi b q))%R.
      rewrite <- !sumto_scal. apply sumto_ext. intros b Hb. destruct (absorbed_nth advance B M HB j p q y b Gp Hb) as (t & f0 & r & Et & Ef & Er & Es & Ew & In).
      destruct (proj2 (proj2 Hz) b Hb) as (Z1 & Z2 & _). rewrite Et in Z1. injection Z1 as Z1. rewrite Ef in Z2. injection Z2 as Z2. assert (Ez : z b = (t, f0)) by (rewrite (surjective_pairing (z b)); congruence).
      unfold particle_value, a, phi. rewrite Et, Es, Ez, (nth_of _ _ _ 0%R Ew), (nth_of _ _ _ 0%R Er). pose proof (proj2 (tg_among _ _ _ _ _ _ _ _ _ _ _ _ _ _ _ _ TG j y (t, f0) q b Ey In Hq Hb)) as Fi. cbn [fst snd] in Fi.
      unfold gain. cbn [fst snd]. rewrite (mass_num _ Fi), exp_plus. change (t, snd (adv q b y (t, f0))) with (adv q b y (t, f0)). unfold Rdiv. ring.
    - intros b Hb. apply Te; [now apply Hzm|exact Hb].
    - intros b b' Hb Hb'. apply (sd_step _ _ _ _ _ _ _ _ _ _ _ _ _ _ _ _ _ _ SD j); try assumption; apply Hzm; lia.
    - intros b q Hb Hq. unfold phi. rewrite Rabs_mult. apply Rmult_le_compat; try apply Rabs_pos.
      + rewrite Rabs_right by (apply Rle_ge, gain_nonneg). now apply (sd_gain _ _ _ _ _ _ _ _ _ _ _ _ _ _ _ _ _ _ SD j y (z b) q b Ey (Hzm b Hb) Hq Hb).
      + apply Sf. now apply (tg_among _ _ _ _ _ _ _ _ _ _ _ _ _ _ _ _ TG j y (z b) q b Ey (Hzm b Hb) Hq Hb).
    - assert (X : (sumto B (fun b => square (a b)) <= square (gmax ^ j) / INR B)%R).
      { apply Rle_trans with (sumto B (fun _ => square (gmax ^ j / INR B)))%R; [|rewrite sumto_const; right; unfold square; field; lra]. apply sumto_le. intros b Hb. apply square_abs. unfold a.
        destruct (slot_nth B M HB j p b Gp Hb) as (t & f0 & r & _ & _ & Er & _). rewrite (nth_of _ _ _ 0%R Er). specialize (Pw b r Er). pose proof (exp_pos r).
        replace (p_z p / INR B * exp r)%R with (/ INR B * (p_z p * exp r))%R by (unfold Rdiv; ring). assert (0 < / INR B)%R by now apply Rinv_0_lt_compat. assert (0 <= p_z p * exp r)%R by (apply Rmult_le_pos; lra).
        rewrite Rabs_right by (apply Rle_ge, Rmult_le_pos; lra). unfold Rdiv. rewrite Rmult_comm. apply Rmult_le_compat_r; lra. }
      apply Rle_trans with (square (gmax ^ j) / INR B * square (gmax * C))%R; [apply Rmult_le_compat_r; [apply square_nonneg|exact X]|]. right. cbn [pow]. unfold square. field. lra.
  Qed.
  (** Resampling. *)
  Definition picked (u : U) (f : T * (F * xf) -> R) (p : @pop T F) : R := (zw p * (/ INR B * Rsum (map (particle_value f (p_ctx p) (p_fs p)) (pick u (map Fin (shares (p_ws p)))))))%R.
  Lemma picked_error j p f C : fine j p -> small (M j) f C -> (0 <= C)%R -> at_most LU (fun u => square (picked u f p - V f p))%R (square (gmax ^ j) * (kappa * square C / INR B))%R.
  Proof.
    intros Fp Sf PC. pose proof (zw_range j p Fp) as Z. pose proof (fn_good _ _ Fp) as Gp. pose proof PB as PB'.
    destruct (shares_ok (T := T) (F := F) (Y := Y) B np 0 HB (World (p_ctx p) (p_ctx p) np 0 0) (St (map Fin (p_ws p)) (p_fs p) [] (@None (list Y)) 0) (p_ws p)) as [Ps Ls]; try reflexivity; try apply Gp.
    assert (EV : V f p = (zw p * sum_below B (fun i => nth i (shares (p_ws p)) 0 * particle_value f (p_ctx p) (p_fs p) i))%R).
    { unfold ExactProofs.V, zw. rewrite Rmult_assoc. f_equal. symmetry. exact (mean_weight_shares (Y := Y) B np 0 HB (World (p_ctx p) (p_ctx p) np 0 0) (St (map Fin (p_ws p)) (p_fs p) [] (@None (list Y)) 0) (p_ws p) eq_refl (gd_ws _ _ _ _ Gp) (gd_ctx _ _ _ _ Gp) (gd_fs _ _ _ _ Gp) eq_refl eq_refl f (p_ctx p) (p_fs p)). }
    assert (Bf : forall i, i < B -> (Rabs (particle_value f (p_ctx p) (p_fs p) i) <= C)%R).
    { intros i Hi. destruct (slot_nth B M HB j p i Gp Hi) as (t & f0 & r & Et & Ef & _ & _ & In). unfold particle_value. rewrite Et, Ef. now apply Sf. }
    pose proof (sd_pick _ _ _ _ _ _ _ _ _ _ _ _ _ _ _ _ _ _ SD (shares (p_ws p)) _ C Ps Ls Bf) as A1.
    refine (at_most_weaken LU _ _ _ _ _ (at_most_affine LU HU (square (zw p)) 0 _ _ (square_nonneg _) A1) _).
    - intros u Hu. right. rewrite EV. unfold picked, square. ring.
    - rewrite Rplus_0_r. apply Rmult_le_compat_r; [|apply square_abs; rewrite Rabs_right; lra]. apply Rmult_le_pos; [apply Rmult_le_pos; [exact Hk|apply square_nonneg]|left; now apply Rinv_0_lt_compat].
  Qed.
  (** The moves. *)
  Lemma renewed_error j p f C u base : j < List.length ys -> fine (S j) p -> H (S j) f -> small (M (S j)) f C -> supp LU u ->
    at_most_over L (uniforms B) k 0 (fun m => square (V f (renewed j u m p) - picked u (AM j f) p))%R base (square (gmax ^ S j) * (moves_factor k * (square C / INR B)))%R.
  Proof.
    intros Hj Fp Hf Sf Hu. pose proof (zw_range (S j) p Fp) as Z. pose proof (fn_good _ _ Fp) as Gp. pose proof PB as PB'.
    destruct (renewed_is (Y := Y) LU pick cand filt c B np lp lq M FP HB (S j) p u base Gp Hu) as (rw & fs & Q1 & Q2 & L1 & L2 & N & _).
    destruct (nth_some rw 0 ltac:(lia)) as [t0 Et0]. destruct (nth_some fs 0 ltac:(lia)) as [f0 Ef0].
    assert (Hz : held B (M (S j)) rw fs (fun b => (nth b rw t0, nth b fs f0))).
    { split; [exact L1|]. split; [exact L2|]. intros b Hb. destruct (nth_some rw b ltac:(lia)) as [t Et]. destruct (nth_some fs b ltac:(lia)) as [f' Ef]. cbn [fst snd]. rewrite (nth_of _ _ _ t0 Et), (nth_of _ _ _ f0 Ef). split; [exact Et|]. split; [exact Ef|]. now apply (N b). }
    destruct (idx_ok (Y := Y) LU pick B np M FP HB (S j) p u Gp Hu) as [Li Fi]. set (idx := pick u (map Fin (shares (p_ws p)))) in *.
    assert (Ep : picked u (AM j f) p = (zw p * particle_mean B (AM j f) rw fs)%R).
    { unfold picked, particle_mean. fold idx. do 3 f_equal. apply same_lists; [rewrite !map_length, seq_length; exact Li|]. intros b Hb. rewrite map_length, Li in Hb. rewrite nth_error_map. rewrite (nth_error_seq_map _ B b Hb).
      destruct (nth_some idx b ltac:(lia)) as [i Ei]. rewrite Ei. cbn [option_map]. f_equal. unfold particle_value.
      destruct (gather_ok (p_ctx p) idx) as (rw' & G1 & _ & N1); [now rewrite (gd_ctx _ _ _ _ Gp)|]. rewrite Q1 in G1. injection G1 as <-. destruct (gather_ok (p_fs p) idx) as (fs' & G2 & _ & N2); [now rewrite (gd_fs _ _ _ _ Gp)|]. rewrite Q2 in G2. injection G2 as <-.
      now rewrite (N1 b i Ei), (N2 b i Ei). }
    pose proof (moves_error L HL PL cand (filt (S j)) B HB lp lq (M (S j)) (G j) (H (S j)) (tg_slots _ _ _ _ _ _ _ _ _ _ _ _ _ _ _ _ TG j eq_refl)
      (fun b d z Hb => tg_closed _ _ _ _ _ _ _ _ _ _ _ _ _ _ _ _ TG j b d z eq_refl Hb) (fun z => tg_proper _ _ _ _ _ _ _ _ _ _ _ _ _ _ _ _ TG (S j) z) (fun b Hb => tg_testable _ _ _ _ _ _ _ _ _ _ _ _ _ _ _ _ TG j b eq_refl Hb)
      (fun h z z' b b' Hh => sd_moves _ _ _ _ _ _ _ _ _ _ _ _ _ _ _ _ _ _ SD j h z z' b b' Hj Hh) f C Hf Sf k 0 base rw fs _ Hz) as A1.
    pose proof (over_most_lin L (uniforms B) HL (uniforms_law B) k 0 _ _ base _ _ (square (zw p)) 0 (square_nonneg _) (Rle_refl 0) A1 (over_most_const L (uniforms B) HL (uniforms_law B) k 0 (fun _ => 0%R) base 0 (fun _ _ => Rle_refl _))) as A2.
    refine (over_most_weaken L (uniforms B) k 0 _ _ _ _ _ _ _ A2).
    - intros m _. right. rewrite Ep. unfold ExactProofs.renewed. fold idx. rewrite Q1, Q2. cbv zeta. unfold ExactProofs.V. cbn [p_z p_ws p_ctx p_fs]. rewrite even_sum. fold (zw p). unfold square. ring.
    - rewrite Rmult_0_l, Rplus_0_r. apply Rmult_le_compat_r; [|apply square_abs; rewrite Rabs_right; lra]. apply Rmult_le_pos; [apply moves_factor_nonneg|]. apply Rmult_le_pos; [apply square_nonneg|left; now apply Rinv_0_lt_compat].
  Qed.

  (** ** All observations *)
  Context (base : @stream D (list R)) (Pb : possible L (uniforms B) base).
  Notation amb := (at_most_block LQ LU L B k base).
  Notation ambs := (at_most_blocks LQ LU L B k base).
  Notation bok := (supp (blocks LQ LU L B k base)).
  Lemma bok_ok bl : bok bl -> blk_ok bl.
  Proof. intros (X1 & X2 & X3). now repeat split; try assumption; apply X3. Qed.
  Definition off (m : R) (f : T * (F * xf) -> R) (p : @pop T F) : R := square (V f p - m).
  Definition fut (j : nat) (f : T * (F * xf) -> R) : T * (F * xf) -> R := match nth_error ys j with Some y => future LQ advance y f | None => f end.
  Definition step_factor : R := (8 + 3 * (moves_factor k + kappa))%R.
  Lemma step_factor_nonneg : (0 <= step_factor)%R.
  Proof. unfold step_factor. pose proof (moves_factor_nonneg k). lra. Qed.
  Lemma square3 x y z : (square (x + y + z) <= 3 * square x + 3 * square y + 3 * square z)%R.
  Proof. pose proof (square_nonneg (x - y)). pose proof (square_nonneg (x - z)). pose proof (square_nonneg (y - z)). unfold square in *. lra. Qed.
  Lemma AM_test j f : H (S j) f -> H (S j) (AM j f).
  Proof. exact (moves_test LA LQ L rows init advance cand filt c B (fun _ => true) ys lp lq M G H TG HB j f). Qed.
  Lemma AM_small j f C : H (S j) f -> small (M (S j)) f C -> small (M (S j)) (AM j f) C.
  Proof.
    intros Hf Sf. apply (after_small L HL PL cand (filt (S j)) B HB lp lq (M (S j)) (G j) (H (S j)) (fun b d z Hb => tg_closed _ _ _ _ _ _ _ _ _ _ _ _ _ _ _ _ TG j b d z eq_refl Hb)
      (fun b Hb => tg_testable _ _ _ _ _ _ _ _ _ _ _ _ _ _ _ _ TG j b eq_refl Hb) f C Hf Sf).
  Qed.
  Lemma absorbed_off m j p y f C : nth_error ys j = Some y -> fine j p -> H (S j) f -> small (M (S j)) f C -> (0 <= C)%R ->
    at_most LQ (fun q => off m f (absorbed q y p)) (2 * (square (gmax ^ S j) * (square C / INR B)) + 2 * off m (future LQ advance y f) p)%R.
  Proof.
    intros Ey Fp Hf Sf PC. refine (at_most_weaken LQ _ _ _ _ _ (at_most_affine LQ HQ 2 (2 * off m (future LQ advance y f) p) _ _ ltac:(lra) (absorbed_error j p y f C Ey Fp Hf Sf PC)) (Rle_refl _)).
    intros q Hq. unfold off. pose proof (square_plus (V f (absorbed q y p) - V (future LQ advance y f) p) (V (future LQ advance y f) p - m)) as X.
    match type of X with (square ?x <= _)%R => replace x with (V f (absorbed q y p) - m)%R in X by ring end. exact X.
  Qed.
  Lemma step_off m j p f C : j < List.length ys -> fine j p -> H (S j) f -> small (M (S j)) f C -> (0 <= C)%R ->
    amb (fun bl => off m f (anext j bl p)) (step_factor * (square (gmax ^ S j) * (square C / INR B)) + (2 * off m (fut j f) p + 6 * off m (fut j (AM j f)) p))%R.
  Proof.
    intros Hj Fp Hf Sf PC. pose proof PB as PB'. destruct (nth_some ys j Hj) as [y Ey]. unfold fut. rewrite Ey. set (W := (square (gmax ^ S j) * (square C / INR B))%R).
    assert (PW : (0 <= W)%R) by (apply Rmult_le_pos; [apply square_nonneg|]; apply Rmult_le_pos; [apply square_nonneg|left; now apply Rinv_0_lt_compat]).
    pose proof (moves_factor_nonneg k) as Pm. pose proof (AM_test j f Hf) as Ht. pose proof (AM_small j f C Hf Sf) as St.
    exists (fun q u => let p1 := absorbed q y p in if decide j p1 then 3 * (moves_factor k * W) + 3 * square (picked u (AM j f) p1 - V (AM j f) p1) + 3 * off m (AM j f) p1 else off m f p1)%R,
      (fun q => let p1 := absorbed q y p in 1 * off m f p1 + 3 * off m (AM j f) p1 + 3 * ((moves_factor k + kappa) * W))%R. split; [|split].
    - intros q u Hq Hu. cbv zeta. set (p1 := absorbed q y p). assert (F1 : fine (S j) p1) by now apply absorbed_fine. unfold anext. rewrite Ey. cbn [fst snd]. cbv zeta. fold p1. destruct (decide j p1).
      + set (e2 := (square (picked u (AM j f) p1 - V (AM j f) p1) + off m (AM j f) p1)%R).
        pose proof (over_most_lin L (uniforms B) HL (uniforms_law B) k 0 _ (fun _ => e2) base _ e2 3 3 ltac:(lra) ltac:(lra) (renewed_error j p1 f C u base Hj F1 Hf Sf Hu) (over_most_const L (uniforms B) HL (uniforms_law B) k 0 (fun _ => e2) base e2 (fun _ _ => Rle_refl _))) as A1.
        refine (over_most_weaken L (uniforms B) k 0 _ _ _ _ _ _ _ A1).
        * intros m' _. unfold off, e2. pose proof (square3 (V f (renewed j u m' p1) - picked u (AM j f) p1) (picked u (AM j f) p1 - V (AM j f) p1) (V (AM j f) p1 - m)) as X.
          match type of X with (square ?x <= _)%R => replace x with (V f (renewed j u m' p1) - m)%R in X by ring end. unfold off. lra.
        * right. unfold e2, W. ring.
      + apply over_most_const; [exact HL|apply uniforms_law|]. intros; lra.
    - intros q Hq. cbv zeta. set (p1 := absorbed q y p). assert (F1 : fine (S j) p1) by now apply absorbed_fine. assert (O1 : (0 <= off m f p1)%R) by apply square_nonneg. assert (O2 : (0 <= off m (AM j f) p1)%R) by apply square_nonneg. destruct (decide j p1).
      + refine (at_most_weaken LU _ _ _ _ _ (at_most_affine LU HU 3 (3 * (moves_factor k * W) + 3 * off m (AM j f) p1) _ _ ltac:(lra) (picked_error (S j) p1 (AM j f) C F1 St PC)) _); [intros u _; lra|].
        replace (square (gmax ^ S j) * (kappa * square C / INR B))%R with (kappa * W)%R by (unfold W, Rdiv; ring). lra.
      + refine (at_most_weaken LU _ _ _ _ _ (at_most_const LU HU (off m f p1)) _); [intros; lra|]. assert (0 <= (moves_factor k + kappa) * W)%R by (apply Rmult_le_pos; lra). lra.
    - pose proof (absorbed_off m j p y f C Ey Fp Hf Sf PC) as A1. pose proof (absorbed_off m j p y (AM j f) C Ey Fp Ht St PC) as A2. fold W in A1, A2.
      refine (at_most_weaken LQ _ _ _ _ _ (at_most_affine LQ HQ 1 (3 * ((moves_factor k + kappa) * W)) _ _ ltac:(lra) (at_most_lin LQ HQ 1 3 _ _ _ _ ltac:(lra) ltac:(lra) A1 A2)) _); [intros q _; cbv zeta; lra|]. unfold step_factor. lra.
  Qed.

  (** The functions whose averages matter. *)
  Fixpoint family (n j : nat) (h : T * (F * xf) -> R) : list (T * (F * xf) -> R) :=
    match n with 0 => [h] | S n => flat_map (fun f => [fut j f; fut j (AM j f)]) (family n (S j) h) end.
  Lemma family_length h : forall n j, INR (List.length (family n j h)) = (2 ^ n)%R.
  Proof.
    induction n as [|n IH]; intros j; [reflexivity|]. cbn [family pow]. rewrite <- (IH (S j)). generalize (family n (S j) h). induction l as [|f l IHl]; [cbn; ring|]. cbn [flat_map app List.length]. rewrite !S_INR, IHl. ring.
  Qed.
  Lemma fut_small j f C : j < List.length ys -> H (S j) f -> small (M (S j)) f C -> (0 <= C)%R -> small (M j) (fut j f) (gmax * C).
  Proof.
    intros Hj Hf Sf PC z Hz. destruct (nth_some ys j Hj) as [y Ey]. unfold fut. rewrite Ey. destruct (tg_test _ _ _ _ _ _ _ _ _ _ _ _ _ _ _ _ TG j y f Ey Hf) as [_ Te].
    apply (averages_bound LQ HQ PQ _ _ _ (Te z 0 Hz HB)). intros q Hq. rewrite Rabs_mult. apply Rmult_le_compat; try apply Rabs_pos.
    - rewrite Rabs_right by (apply Rle_ge, gain_nonneg). now apply (sd_gain _ _ _ _ _ _ _ _ _ _ _ _ _ _ _ _ _ _ SD j).
    - apply Sf. now apply (tg_among _ _ _ _ _ _ _ _ _ _ _ _ _ _ _ _ TG j y z q 0 Ey Hz Hq HB).
  Qed.
  Lemma fut_onto j f (b : bool) : fut j (if b then AM j f else f) = onto_next LQ L advance cand filt c (fun _ => b) ys lp lq j f \/ nth_error ys j = None.
  Proof. unfold fut, onto_next. destruct (nth_error ys j); [now left|now right]. Qed.
  Record member (m C : R) (j : nat) (f : T * (F * xf) -> R) : Prop := { mb_test : H j f; mb_small : small (M j) f C; mb_int : integral (M j) (fun z => height z * f z)%R m }.
  Lemma fut_member m C j f (b : bool) : j < List.length ys -> (0 <= C)%R -> member m C (S j) f -> member m (gmax * C) j (fut j (if b then AM j f else f)).
  Proof.
    intros Hj PC [M1 M2 M3]. destruct (fut_onto j f b) as [E1|E1]; [|apply nth_error_None in E1; lia]. constructor.
    - rewrite E1. now apply (onto_test LA LQ L rows init advance cand filt c B (fun _ => b) ys lp lq M G H (targets_any _) HB).
    - destruct b; apply fut_small; try assumption; [now apply AM_test|now apply AM_small].
    - rewrite E1. now apply (onto_integral LA LQ L HQ HL rows init advance cand filt c B (fun _ => b) ys lp lq M G H (targets_any _) HM HB).
  Qed.
  Lemma family_member h m C : (0 <= C)%R -> member m C (List.length ys) h -> forall n j, j + n = List.length ys -> forall f, In f (family n j h) -> member m (gmax ^ n * C) j f.
  Proof.
    intros PC Hh. induction n as [|n IH]; intros j Hj f Hf.
    - destruct Hf as [<-|[]]. rewrite Nat.add_0_r in Hj. subst j. cbn [pow]. now rewrite Rmult_1_l.
    - cbn [family] in Hf. apply in_flat_map in Hf as (g & Hg' & Hf). pose proof (IH (S j) ltac:(lia) g Hg') as Mg. cbn [pow]. rewrite Rmult_assoc.
      assert (0 <= gmax ^ n * C)%R by (apply Rmult_le_pos; [left; apply gp_pos|exact PC]).
      destruct Hf as [<-|[<-|[]]]; [apply (fut_member m (gmax ^ n * C) j g false)|apply (fut_member m (gmax ^ n * C) j g true)]; try assumption; lia.
  Qed.
  Fixpoint fit_factor (C : R) (n j : nat) : R := match n with 0 => 0%R | S n => (fit_factor C n (S j) + 6 ^ n * (2 ^ n * (step_factor * (square (gmax ^ S j) * square (gmax ^ n * C)))))%R end.
  Lemma Rsum_le {Z} (l : list Z) f g : (forall z, In z l -> (f z <= g z)%R) -> (Rsum (map f l) <= Rsum (map g l))%R.
  Proof. induction l as [|z l IH]; intros Hz; unfold Rsum in *; cbn [map fold_right]; [lra|]. pose proof (Hz z (or_introl eq_refl)). specialize (IH (fun x Hx => Hz x (or_intror Hx))). lra. Qed.
  Lemma family_step m h n j p : (Rsum (map (fun f => 2 * off m (fut j f) p + 6 * off m (fut j (AM j f)) p) (family n (S j) h)) <= 6 * Rsum (map (fun f => off m f p) (family (S n) j h)))%R.
  Proof.
    cbn [family]. generalize (family n (S j) h). induction l as [|f l IH]; unfold Rsum in *; cbn [map flat_map app fold_right]; [lra|].
    assert (0 <= off m (fut j f) p)%R by apply square_nonneg. lra.
  Qed.
  Lemma Rsum_const {Z} (l : list Z) f (x : R) : Rsum (map (fun z => x + f z)%R l) = (INR (List.length l) * x + Rsum (map f l))%R.
  Proof. induction l as [|z l IH]; [unfold Rsum; cbn; ring|]. unfold Rsum in *. cbn [map fold_right List.length]. rewrite S_INR, IH. ring. Qed.
  Fixpoint arun (n j : nat) (w : nat -> blk) (p : @pop T F) : pop := match n with 0 => p | S n => arun n (S j) w (anext j (w j) p) end.
  Lemma arun_after a w n : forall j, arun n j w (aafter j a w) = aafter (j + n) a w.
  Proof. induction n as [|n IH]; intros j; cbn [arun]; [now rewrite Nat.add_0_r|]. change (anext j (w j) (aafter j a w)) with (aafter (S j) a w). rewrite IH. f_equal. lia. Qed.
  Lemma run_error h m C : (0 <= C)%R -> member m C (List.length ys) h -> forall n j p w, j + n = List.length ys -> fine j p -> (forall i, bok (w i)) ->
    ambs n j (fun w' => off m h (arun n j w' p)) w (fit_factor C n j / INR B + 6 ^ n * Rsum (map (fun f => off m f p) (family n j h)))%R.
  Proof.
    intros PC Hh. pose proof PB as PB'. induction n as [|n IH]; intros j p w Hj Fp Hw.
    - cbn [at_most_blocks arun fit_factor family map pow]. unfold Rsum. cbn [fold_right]. right. unfold Rdiv. ring.
    - exists (fun bl => fit_factor C n (S j) / INR B + 6 ^ n * Rsum (map (fun f => off m f (anext j bl p)) (family n (S j) h)))%R. split.
      + intros bl Hbl. refine (blocks_weaken LQ LU L B k base Pb n (S j) _ _ (set_at w j bl) _ _ _ _ (Rle_refl _) (IH (S j) (anext j bl p) (set_at w j bl) ltac:(lia) (anext_fine j p bl ltac:(lia) (bok_ok bl Hbl) Fp) _)).
        * intros i. unfold set_at. destruct (i =? j); [exact Hbl|apply Hw].
        * intros w' _ Hi. cbn [arun]. rewrite (Hi j) by lia. unfold set_at. rewrite Nat.eqb_refl. lra.
        * intros i. unfold set_at. destruct (i =? j); [exact Hbl|apply Hw].
      + pose proof (family_member h m C PC Hh n (S j) ltac:(lia)) as Fm. assert (PC' : (0 <= gmax ^ n * C)%R) by (apply Rmult_le_pos; [left; apply gp_pos|exact PC]).
        pose proof (block_sum LQ LU L HQ HU HL B k base Pb (family n (S j) h) (fun f bl => off m f (anext j bl p)) _
          (fun f Hf => step_off m j p f (gmax ^ n * C) ltac:(lia) Fp (mb_test _ _ _ _ (Fm f Hf)) (mb_small _ _ _ _ (Fm f Hf)) PC')) as A1.
        assert (P6 : (0 < 6 ^ n)%R) by (apply pow_lt; lra).
        refine (block_weaken LQ LU L B k base Pb _ _ _ _ _ _ (block_lin LQ LU L HQ HU HL B k base _ _ _ _ (6 ^ n) 1 ltac:(lra) ltac:(lra) A1 (block_const LQ LU L HQ HU HL B k base (fit_factor C n (S j) / INR B)%R))); [intros bl _; lra|].
        rewrite Rsum_const, family_length. pose proof (family_step m h n j p) as X. cbn [fit_factor]. set (a1 := Rsum (map _ (family n (S j) h))) in *. set (a2 := Rsum (map _ (family (S n) j h))) in *.
        change (6 ^ S n)%R with (6 * 6 ^ n)%R. apply (Rmult_le_compat_l (6 ^ n)) in X; [|lra]. set (g := (gmax ^ S j)%R). unfold Rdiv. lra.
  Qed.
  Lemma start_off h m C : (0 <= C)%R -> member m C 0 h -> at_most LA (fun a => off m h (start a)) (square C / INR B)%R.
  Proof.
    intros PC [M1 M2 M3]. pose proof PB as PB'. destruct (sd_start _ _ _ _ _ _ _ _ _ _ _ _ _ _ _ _ _ _ SD h m M1 M3) as [S1 S2].
    refine (at_most_weaken LA _ _ _ _ _ (pairwise_mean LA HA B (fun b a => at_slot (rows a) b (fun t => h (t, (init a b t, Fin 0)))) (fun _ => m) C HB S1 S2 _) (Rle_refl _)).
    - intros a Ha. right. unfold off. rewrite (start_value LA LQ L rows init advance cand filt B (fun _ => true) ys lp lq M G H TG a h Ha). f_equal. f_equal. rewrite sumto_const. field. lra.
    - intros b a Hb Ha. unfold at_slot. destruct (tg_rows _ _ _ _ _ _ _ _ _ _ _ _ _ _ _ _ TG a Ha) as [Lr N]. destruct (nth_some (rows a) b ltac:(lia)) as [t Et]. rewrite Et. apply M2. now apply N.
  Qed.
  Definition fit_bound (C : R) (n : nat) : R := (fit_factor C n 0 + 6 ^ n * (2 ^ n * square (gmax ^ n * C)))%R.
  Lemma adaptive_error h m C w0 : (0 <= C)%R -> member m C (List.length ys) h -> (forall i, bok (w0 i)) ->
    (forall a w, supp LA a -> (forall j, bok (w j)) -> fit_draws_at E init advance pick cand filt B np rnd k (rejuvenates (E a w) (Plain (SMC2 c)) cbs np rnd (rows a) ys) ys lp lq a w) ->
    at_most_fit LA LQ LU L B k ys base w0 (fun a w => square (whole_fit (E a w) (Plain (SMC2 c)) cbs np rnd (rows a) ys h - m)) (fit_bound C (List.length ys) / INR B)%R.
  Proof.
    intros PC Hh Hw0 FD. pose proof PB as PB'. set (n := List.length ys).
    exists (fun a => fit_factor C n 0 / INR B + 6 ^ n * Rsum (map (fun f => off m f (start a)) (family n 0 h)))%R. split.
    - intros a Ha. refine (blocks_weaken LQ LU L B k base Pb n 0 _ _ w0 _ _ Hw0 _ (Rle_refl _) (run_error h m C PC Hh n 0 (start a) w0 eq_refl (start_fine a Ha) Hw0)).
      intros w Hw _. right. unfold off. rewrite (path_value a w Ha (fun j => bok_ok _ (Hw j)) (FD a w Ha Hw) h). change (start a) with (aafter 0 a w). now rewrite arun_after.
    - pose proof (family_member h m C PC Hh n 0 eq_refl) as Fm. assert (PC' : (0 <= gmax ^ n * C)%R) by (apply Rmult_le_pos; [left; apply gp_pos|exact PC]).
      assert (A1 : at_most LA (fun a => Rsum (map (fun f => off m f (start a)) (family n 0 h))) (INR (List.length (family n 0 h)) * (square (gmax ^ n * C) / INR B))).
      { revert Fm. generalize (family n 0 h). induction l as [|f l IH]; intros Fm.
        - unfold Rsum. cbn. rewrite Rmult_0_l. now apply at_most_const.
        - refine (at_most_weaken LA _ _ _ _ _ (at_most_lin LA HA 1 1 _ _ _ _ ltac:(lra) ltac:(lra) (start_off f m _ PC' (Fm f (or_introl eq_refl))) (IH (fun g Hg' => Fm g (or_intror Hg')))) _).
          + intros a _. unfold Rsum. cbn [map fold_right]. lra.
          + cbn [List.length]. rewrite S_INR. lra. }
      rewrite family_length in A1. assert (P6 : (0 < 6 ^ n)%R) by (apply pow_lt; lra).
      refine (at_most_weaken LA _ _ _ _ _ (at_most_affine LA HA (6 ^ n) (fit_factor C n 0 / INR B) _ _ ltac:(lra) A1) _); [intros; lra|]. right. unfold fit_bound, Rdiv. ring.
  Qed.
  (** What is left of the weights, as means over the final particles. *)
  Lemma aafter_fine a w : supp LA a -> (forall j, blk_ok (w j)) -> forall j, j <= List.length ys -> fine j (aafter j a w).
  Proof. intros Ha Hw. induction j as [|j IH]; intros Hj; cbn [aafter]; [now apply start_fine|]. apply anext_fine; [lia|apply Hw|apply IH; lia]. Qed.
End Adaptive.
