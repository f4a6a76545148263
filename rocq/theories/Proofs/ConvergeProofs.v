(** Lemmas about bounds on averages. *)
From Coq Require Import Reals List Bool Arith Lia Lra.
From Coquelicot Require Import Coquelicot.
From Verif.Spec Require Import WeightsSpec UnbiasedSpec ConvergeSpec.
From Verif.Proofs Require Import UnbiasedProofs UnbiasedFilter.
Import ListNotations.
Local Open Scope nat_scope.

(** * Laws that average non-negative quantities to non-negative numbers *)
Lemma uniform_pos : law_pos uniform.
Proof. intros f D H. cbn [uniform mean supp dom] in *. apply RInt_ge_0; [lra|exact D|exact H]. Qed.
Lemma finite_pos {A} (l : list (A * R)) : (forall q, In q l -> (0 <= snd q)%R) -> law_pos (finite l).
Proof.
  intros Hp f _ H. cbn [finite mean supp] in *. induction l as [|q l IH]; cbn [map fold_right]; [lra|].
  apply Rplus_le_le_0_compat.
  - apply Rmult_le_pos; [apply Hp; now left|]. apply H. exists (snd q). left. now destruct q.
  - apply IH; [intros; apply Hp; now right|]. intros a [p Ha]. apply H. exists p. now right.
Qed.
Lemma image_pos {A B} (h : A -> B) (L : law A) : law_pos L -> law_pos (image h L).
Proof. intros P f D H. apply (P (fun a => f (h a)) D). intros a Ha. apply H. now exists a. Qed.
Lemma independent_pos {A} (L : law A) (base : nat -> A) : (forall k, supp L (base k)) -> law_pos L -> forall b, law_pos (independent L b base).
Proof.
  intros Hb P. induction b as [|b IH]; intros f D H.
  - apply H. exact Hb.
  - destruct D as [D1 D2]. cbn [independent mean]. apply IH; [exact D1|]. intros u Hu. apply P; [now apply D2|].
    intros a Ha. apply H. cbn [independent supp]. apply supp_set; [exact (proj1 (supp_independent L base b u) Hu)|exact Ha].
Qed.

Section Bounds.
  Context {A : Type} (L : law A) (HL : law_ok L).
  Lemma averages_le (P : law_pos L) f g x y : averages L f x -> averages L g y -> (forall a, supp L a -> (f a <= g a)%R) -> (x <= y)%R.
  Proof.
    intros Hf Hg H. destruct (averages_lin L HL 1 (-1) _ _ _ _ Hg Hf) as [D E].
    assert (0 <= 1 * y + -1 * x)%R; [|lra]. rewrite <- E. apply P; [exact D|]. intros a Ha. specialize (H a Ha). lra.
  Qed.
  Lemma averages_bound (P : law_pos L) f x B : averages L f x -> (forall a, supp L a -> (Rabs (f a) <= B)%R) -> (Rabs x <= B)%R.
  Proof.
    intros Hf H. apply Rabs_le. split.
    - apply (averages_le P (fun _ => (- B)%R) f); [now apply averages_const|exact Hf|]. intros a Ha. pose proof (proj1 (Rabs_le_between _ _) (H a Ha)). lra.
    - apply (averages_le P f (fun _ => B)); [exact Hf|now apply averages_const|]. intros a Ha. pose proof (proj1 (Rabs_le_between _ _) (H a Ha)). lra.
  Qed.
  Lemma at_most_averages (P : law_pos L) f c x : at_most L f c -> averages L f x -> (x <= c)%R.
  Proof. intros (g & m & Hg & Hm & Hc) Hf. pose proof (averages_le P f g x m Hf Hm Hg). lra. Qed.
  Lemma at_most_of f x : averages L f x -> at_most L f x.
  Proof. intros H. exists f, x. split; [intros; lra|]. split; [exact H|lra]. Qed.
  Lemma at_most_const c : at_most L (fun _ => c) c.
  Proof. apply at_most_of. now apply averages_const. Qed.
  Lemma at_most_weaken f g c c' : (forall a, supp L a -> (f a <= g a)%R) -> at_most L g c -> (c <= c')%R -> at_most L f c'.
  Proof.
    intros H (h & m & Hh & Hm & Hc) Hcc. exists h, m. split; [|split; [exact Hm|lra]]. intros a Ha. specialize (H a Ha). specialize (Hh a Ha). lra.
  Qed.
  Lemma at_most_lin a b f g x y : (0 <= a)%R -> (0 <= b)%R -> at_most L f x -> at_most L g y -> at_most L (fun z => a * f z + b * g z)%R (a * x + b * y)%R.
  Proof.
    intros Ha Hb (f' & x' & Hf & Hx & Hxx) (g' & y' & Hg & Hy & Hyy).
    exists (fun z => a * f' z + b * g' z)%R, (a * x' + b * y')%R. split; [|split; [now apply averages_lin|]].
    - intros z Hz. apply Rplus_le_compat; apply Rmult_le_compat_l; auto.
    - apply Rplus_le_compat; apply Rmult_le_compat_l; auto.
  Qed.
  (** Scaled and shifted. *)
  Lemma at_most_affine a b f x : (0 <= a)%R -> at_most L f x -> at_most L (fun z => a * f z + b)%R (a * x + b)%R.
  Proof.
    intros Ha H. pose proof (at_most_lin a 1 f (fun _ => b) x b Ha ltac:(lra) H (at_most_const b)) as H1.
    apply (at_most_weaken _ _ _ (a * x + b)%R) with (2 := H1); [intros; lra|lra].
  Qed.
End Bounds.

(** * Streams *)
Section OverStream.
  Context {U D : Type} (LU : law U) (LD : law D) (HU : law_ok LU) (HD : law_ok LD).
  Lemma over_most_weaken k : forall r f g w c c', (forall w', agree r w w' -> (f w' <= g w')%R) -> (c <= c')%R -> at_most_over LU LD k r g w c -> at_most_over LU LD k r f w c'.
  Proof.
    induction k as [|k IH]; intros r f g w c c' H Hc Hg.
    - cbn [at_most_over] in *. specialize (H w ltac:(intros i Hi; reflexivity)). lra.
    - destruct Hg as (F & G & H1 & H2 & H3). exists F, G. split; [|split; [exact H2|]].
      + intros u d Hu Hd. apply (IH (S r) f g (put w r (u, d)) (F u d) (F u d)); [|lra|now apply H1]. intros w' Ha. apply agree_put in Ha. now apply H.
      + apply (at_most_weaken LU G G c); [intros; lra|exact H3|exact Hc].
  Qed.
  (** It is enough to compare on possible draws. *)
  Lemma possible_put w r u d : possible LU LD w -> supp LU u -> supp LD d -> possible LU LD (put w r (u, d)).
  Proof. intros Hw Hu Hd i. unfold put. destruct (i =? r); [now split|apply Hw]. Qed.
  Lemma over_most_possible k : forall r f g w c c', possible LU LD w -> (forall w', possible LU LD w' -> agree r w w' -> (f w' <= g w')%R) -> (c <= c')%R ->
    at_most_over LU LD k r g w c -> at_most_over LU LD k r f w c'.
  Proof.
    induction k as [|k IH]; intros r f g w c c' Hw H Hc Hg.
    - cbn [at_most_over] in *. specialize (H w Hw ltac:(intros i Hi; reflexivity)). lra.
    - destruct Hg as (F & G & H1 & H2 & H3). exists F, G. split; [|split; [exact H2|]].
      + intros u d Hu Hd. apply (IH (S r) f g (put w r (u, d)) (F u d) (F u d)); [now apply possible_put| |lra|now apply H1].
        intros w' Hw' Ha. apply agree_put in Ha. now apply H.
      + apply (at_most_weaken LU G G c); [intros; lra|exact H3|exact Hc].
  Qed.
  Lemma over_most_const k : forall r f w c, (forall w', agree r w w' -> (f w' <= c)%R) -> at_most_over LU LD k r f w c.
  Proof.
    induction k as [|k IH]; intros r f w c H.
    - apply H. intros i Hi. reflexivity.
    - exists (fun _ _ => c), (fun _ => c). split; [|split; [intros; now apply at_most_const|now apply at_most_const]].
      intros u d _ _. apply IH. intros w' Ha. apply agree_put in Ha. now apply H.
  Qed.
  Lemma over_most_lin k : forall r f g w x y a b, (0 <= a)%R -> (0 <= b)%R -> at_most_over LU LD k r f w x -> at_most_over LU LD k r g w y ->
    at_most_over LU LD k r (fun w' => a * f w' + b * g w')%R w (a * x + b * y)%R.
  Proof.
    induction k as [|k IH]; intros r f g w x y a b Ha Hb Hf Hg.
    - cbn [at_most_over] in *. apply Rplus_le_compat; apply Rmult_le_compat_l; assumption.
    - destruct Hf as (F & G & F1 & F2 & F3), Hg as (F' & G' & G1 & G2 & G3).
      exists (fun u d => a * F u d + b * F' u d)%R, (fun u => a * G u + b * G' u)%R. split; [|split].
      + intros u d Hu Hd. apply IH; auto.
      + intros u Hu. apply at_most_lin; auto.
      + now apply at_most_lin.
  Qed.
  (** If the average itself exists it is bounded. *)
  Lemma over_most_average (PU : law_pos LU) (PD : law_pos LD) k : forall r f w c, at_most_over LU LD k r f w c -> exists_average LU LD k r f w -> (average LU LD k r f w <= c)%R.
  Proof.
    induction k as [|k IH]; intros r f w c H E; [exact H|]. destruct H as (F & G & H1 & H2 & H3), E as [E1 E2]. cbn [average].
    apply (at_most_averages LU HU PU (fun u => mean LD (fun d => average LU LD k (S r) f (put w r (u, d))))); [|split; [exact E1|reflexivity]].
    apply (at_most_weaken LU _ G c); [|exact H3|lra]. intros u Hu. destruct (E2 u Hu) as [E3 E4].
    apply (at_most_averages LD HD PD (fun d => average LU LD k (S r) f (put w r (u, d)))); [|split; [exact E3|reflexivity]].
    apply (at_most_weaken LD _ (F u) (G u)); [|now apply H2|lra]. intros d Hd. apply IH; auto.
  Qed.
End OverStream.

(** * Independent draws *)
Lemma sumto_S n f : sumto (S n) f = (sumto n f + f n)%R.
Proof. unfold sumto. rewrite seq_S, map_app, Rsum_app. unfold Rsum at 2. cbn [map fold_right Nat.add]. ring. Qed.
Lemma sumto_0 n f : (forall i, i < n -> f i = 0%R) -> sumto n f = 0%R.
Proof. induction n as [|n IH]; intros H; [reflexivity|]. rewrite sumto_S, IH by (intros; apply H; lia). rewrite H by lia. ring. Qed.
Lemma sumto_le n f g : (forall i, i < n -> (f i <= g i)%R) -> (sumto n f <= sumto n g)%R.
Proof.
  induction n as [|n IH]; intros H; [unfold sumto, Rsum; cbn; lra|]. rewrite !sumto_S. pose proof (H n ltac:(lia)). specialize (IH ltac:(intros; apply H; lia)). lra.
Qed.
Lemma sumto_minus n f g : (sumto n f - sumto n g)%R = sumto n (fun i => f i - g i)%R.
Proof. induction n as [|n IH]; [unfold sumto, Rsum; cbn; ring|]. rewrite !sumto_S, <- IH. ring. Qed.
Lemma square_sumto n x : square (sumto n x) = (sumto n (fun i => square (x i)) + 2 * sumto n (fun i => sumto i (fun k => x k * x i)))%R.
Proof.
  induction n as [|n IH]; [unfold square, sumto, Rsum; cbn; ring|]. rewrite !sumto_S.
  assert (E : sumto n (fun k => x k * x n)%R = (x n * sumto n x)%R) by (rewrite <- sumto_scal; apply sumto_ext; intros; ring).
  rewrite E. replace (square (sumto n x + x n)) with (square (sumto n x) + 2 * (x n * sumto n x) + square (x n))%R by (unfold square; ring). rewrite IH. ring.
Qed.
Lemma square_nonneg x : (0 <= square x)%R.
Proof. unfold square. pose proof (Rle_0_sqr x) as H. unfold Rsqr in H. exact H. Qed.
Lemma square_abs x B : (Rabs x <= B)%R -> (square x <= square B)%R.
Proof. intros H. unfold square. apply Rabs_le_between in H. nra. Qed.
Lemma square_plus x y : (square (x + y) <= 2 * square x + 2 * square y)%R.
Proof. pose proof (square_nonneg (x - y)) as H. unfold square in *. lra. Qed.

Section Independence.
  Context {A : Type} (L : law A) (HL : law_ok L) (base : nat -> A) (Hbase : forall k, supp L (base k)).
  Lemma independent_two b i k f g mf mg : i < k -> k < b -> averages L f mf -> averages L g mg ->
    averages (independent L b base) (fun u => f (u i) * g (u k))%R (mf * mg)%R.
  Proof.
    intros Hik Hk Hf Hg. induction b as [|b IH]; [lia|]. pose proof (independent_ok L HL base Hbase b) as OK.
    assert (In : forall u, averages L (fun a => f (set_at u b a i) * g (set_at u b a k))%R (if k =? b then mg * f (u i) else f (u i) * g (u k))%R).
    { intros u. unfold set_at. destruct (Nat.eqb_spec i b); [lia|]. destruct (Nat.eqb_spec k b); [|now apply averages_const].
      apply (averages_ext L HL (fun a => f (u i) * g a)%R); [intros; ring|]. rewrite (Rmult_comm mg). now apply averages_scal. }
    destruct (averages_ext _ OK (fun u => if k =? b then mg * f (u i) else f (u i) * g (u k))%R
      (fun u => mean L (fun a => f (set_at u b a i) * g (set_at u b a k))%R) (mf * mg)%R) as [E1 E2].
    - intros u _. symmetry. apply (In u).
    - destruct (Nat.eqb_spec k b); [|apply IH; lia]. rewrite (Rmult_comm mf). apply averages_scal; [exact OK|]. apply independent_one; [exact HL|exact Hbase|exact Hf|lia].
    - split; [|exact E2]. cbn [independent dom]. split; [exact E1|]. intros u _. apply (In u).
  Qed.

  (** The mean square error of a sum of independent terms. *)
  Lemma independent_square b n (phi : nat -> A -> R) m B a : n <= b -> (forall i, i < n -> averages L (phi i) (m i)) ->
    (forall i x, i < n -> supp L x -> (Rabs (phi i x) <= B)%R) ->
    at_most (independent L b base) (fun u => square (sumto n (fun i => a i * phi i (u i)) - sumto n (fun i => a i * m i)))%R
      (sumto n (fun i => square (a i)) * square B)%R.
  Proof.
    intros Hn Hm Hb. pose proof (independent_ok L HL base Hbase b) as OK.
    assert (Hc : forall i, i < n -> averages L (fun x => phi i x - m i)%R 0%R).
    { intros i Hi. pose proof (averages_lin L HL 1 (-1) _ _ _ _ (Hm i Hi) (averages_const L HL (m i))) as H.
      refine (eq_rect _ (averages L _) (averages_ext L HL _ _ _ _ H) _ _); [intros; ring|ring]. }
    set (diag i (u : nat -> A) := (square (a i) * (square B + square (m i)) + - (2 * square (a i) * m i) * phi i (u i))%R).
    set (cross i k (u : nat -> A) := (a k * a i * ((phi k (u k) - m k) * (phi i (u i) - m i)))%R).
    exists (fun u => 1 * sumto n (fun i => diag i u) + 2 * sumto n (fun i => sumto i (fun k => cross i k u)))%R,
      (1 * sumto n (fun i => square (a i) * (square B - square (m i))) + 2 * sumto n (fun i => sumto i (fun k => 0)))%R.
    split; [|split].
    - intros u Hu. rewrite sumto_minus, square_sumto, Rmult_1_l. apply Rplus_le_compat.
      + apply sumto_le. intros i Hi. unfold diag. pose proof (square_abs _ _ (Hb i (u i) Hi (proj1 (supp_independent _ _ _ _) Hu i))) as H.
        pose proof (square_nonneg (a i)) as Ha. unfold square in *. nra.
      + right. f_equal. apply sumto_ext. intros i Hi. apply sumto_ext. intros k Hk. unfold cross. ring.
    - apply averages_lin; [exact OK| |].
      + apply averages_sum; [exact OK|]. intros i Hi. apply in_seq in Hi. unfold diag.
        replace (square (a i) * (square B - square (m i)))%R with (1 * (square (a i) * (square B + square (m i))) + - (2 * square (a i) * m i) * m i)%R by (unfold square; ring).
        apply (averages_ext _ OK (fun u => 1 * (square (a i) * (square B + square (m i))) + - (2 * square (a i) * m i) * phi i (u i))%R); [intros; ring|].
        apply averages_lin; [exact OK|now apply averages_const|]. apply independent_one; [exact HL|exact Hbase|apply Hm; lia|lia].
      + apply averages_sum; [exact OK|]. intros i Hi. apply in_seq in Hi. apply averages_sum; [exact OK|]. intros k Hk. apply in_seq in Hk. unfold cross.
        replace 0%R with (a k * a i * (0 * 0))%R by ring. apply averages_scal; [exact OK|].
        apply (independent_two b k i (fun x => phi k x - m k)%R (fun x => phi i x - m i)%R); [lia|lia|apply Hc; lia|apply Hc; lia].
    - rewrite (sumto_0 n (fun i => sumto i (fun _ => 0%R))) by (intros; now apply sumto_0).
      rewrite Rmult_1_l, Rmult_0_r, Rplus_0_r, Rmult_comm, <- sumto_scal.
            apply sumto_le. intros i Hi. pose proof (Rmult_le_pos _ _ (square_nonneg (a i)) (square_nonneg (m i))). lra.
  Qed.
  (** Bounds are inherited by independent components. *)
  Lemma independent_most b k f c : k < b -> at_most L f c -> at_most (independent L b base) (fun u => f (u k)) c.
  Proof.
    intros Hk (g & m & Hg & Hm & Hc). exists (fun u => g (u k)), m. split; [|split; [now apply independent_one|exact Hc]].
    intros u Hu. apply Hg. exact (proj1 (supp_independent _ _ _ _) Hu k).
  Qed.
End Independence.
(** ... and by functions of draws that keep them. *)
Lemma image_most {A B} (h : A -> B) (back : B -> A) (L : law A) f c : law_ok L -> (forall a, back (h a) = a) ->
  at_most L (fun a => f (h a)) c -> at_most (image h L) f c.
Proof.
  intros HL Hb (g & m & Hg & Hm & Hc). exists (fun y => g (back y)), m. split; [|split; [|exact Hc]].
  - intros y (a & Ha & <-). rewrite Hb. now apply Hg.
  - apply averages_image. apply (averages_ext L HL g); [|exact Hm]. intros a _. now rewrite Hb.
Qed.

(** The variance of a sum of independent terms. *)
Lemma independent_variance {A} (L : law A) (HL : law_ok L) (base : nat -> A) (Hbase : forall k, supp L (base k)) b n (phi : nat -> A -> R) m v a : n <= b ->
  (forall i, i < n -> averages L (phi i) (m i)) -> (forall i, i < n -> averages L (fun x => square (phi i x)) (v i)) ->
  averages (independent L b base) (fun u => square (sumto n (fun i => a i * phi i (u i)) - sumto n (fun i => a i * m i)))%R
    (sumto n (fun i => square (a i) * (v i - square (m i))))%R.
Proof.
  intros Hn Hm Hv. pose proof (independent_ok L HL base Hbase b) as OK.
  assert (Hc : forall i, i < n -> averages L (fun x => phi i x - m i)%R 0%R).
  { intros i Hi. pose proof (averages_lin L HL 1 (-1) _ _ _ _ (Hm i Hi) (averages_const L HL (m i))) as H.
    refine (eq_rect _ (averages L _) (averages_ext L HL _ _ _ _ H) _ _); [intros; ring|ring]. }
  assert (Hd : forall i, i < n -> averages L (fun x => square (phi i x - m i)) (v i - square (m i))%R).
  { intros i Hi. pose proof (averages_lin L HL 1 1 _ _ _ _ (averages_lin L HL 1 (-2 * m i) _ _ _ _ (Hv i Hi) (Hm i Hi)) (averages_const L HL (square (m i)))) as H.
    refine (eq_rect _ (averages L _) (averages_ext L HL _ _ _ _ H) _ _); [intros; unfold square; ring|unfold square; ring]. }
  assert (H : averages (independent L b base) (fun u => 1 * sumto n (fun i => square (a i) * square (phi i (u i) - m i)) +
      2 * sumto n (fun i => sumto i (fun k => a k * a i * ((phi k (u k) - m k) * (phi i (u i) - m i)))))%R
    (1 * sumto n (fun i => square (a i) * (v i - square (m i))) + 2 * sumto n (fun i => sumto i (fun k => 0)))%R).
  { apply averages_lin; [exact OK| |].
    - apply averages_sum; [exact OK|]. intros i Hi. apply in_seq in Hi. apply averages_scal; [exact OK|].
      apply (independent_one L HL base Hbase b i (fun x => square (phi i x - m i))); [apply Hd; lia|lia].
    - apply averages_sum; [exact OK|]. intros i Hi. apply in_seq in Hi. apply averages_sum; [exact OK|]. intros k Hk. apply in_seq in Hk.
      replace 0%R with (a k * a i * (0 * 0))%R by ring. apply averages_scal; [exact OK|].
      apply (independent_two L HL base Hbase b k i (fun x => phi k x - m k)%R (fun x => phi i x - m i)%R); [lia|lia|apply Hc; lia|apply Hc; lia]. }
  refine (eq_rect _ (averages _ _) (averages_ext _ OK _ _ _ _ H) _ _).
  - intros u _. rewrite sumto_minus, square_sumto, Rmult_1_l. f_equal.
    + apply sumto_ext. intros i Hi. unfold square. ring.
    + f_equal. apply sumto_ext. intros i Hi. apply sumto_ext. intros k Hk. ring.
  - rewrite (sumto_0 n (fun i => sumto i (fun _ => 0%R))) by (intros; now apply sumto_0). ring.
Qed.
