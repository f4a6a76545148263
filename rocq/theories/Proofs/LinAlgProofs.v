(** Linear algebra for Props/ProposalMxProps.v. *)
From Coq Require Import Reals Lra.
From mathcomp Require Import all_ssreflect all_algebra.
From Verif.Spec Require Import RealField LinAlgSpec.
Set Implicit Arguments.
Unset Strict Implicit.
Unset Printing Implicit Defensive.
Import GRing.Theory.
Local Open Scope ring_scope.

Lemma RaddE (x y : R) : x + y = Rplus x y. Proof. by []. Qed.
Lemma RmulE (x y : R) : x * y = Rmult x y. Proof. by []. Qed.
Lemma RoppE (x : R) : - x = Ropp x. Proof. by []. Qed.
Lemma R0E : (0 : R_zmodType) = 0%coqR. Proof. by []. Qed.
Lemma R1E : (1 : R_ringType) = 1%coqR. Proof. by []. Qed.
Definition RE := (RaddE, RmulE, RoppE).

Lemma RinvE (x : R) : x <> 0%coqR -> x^-1 = Rinv x.
Proof. by move=> /eqP H; change (R_inv x = Rinv x); rewrite /R_inv H. Qed.

Lemma sum_nonneg n (f : 'I_n -> R) : (forall i, Rle 0 (f i)) -> Rle 0 (\sum_i f i).
Proof.
  move=> H. apply: (big_ind (fun x => Rle 0 x)); [exact: Rle_refl| |by []].
  move=> x y Hx Hy; rewrite ?RE; lra.
Qed.
Lemma sum_pos_one n (f : 'I_n -> R) k : (forall i, Rle 0 (f i)) -> Rlt 0 (f k) -> Rlt 0 (\sum_i f i).
Proof.
  move=> H Hk. rewrite (bigD1 k) //= ?RE.
  have: Rle 0 (\sum_(i < n | i != k) f i).
    apply: (big_ind (fun x => Rle 0 x)); [exact: Rle_refl| |by []]. by move=> x y Hx Hy; rewrite ?RE; lra.
  by move=> H0; exact: (Rplus_lt_le_0_compat _ _ Hk H0).
Qed.
Lemma sumR_scal n (c : R) (f : 'I_n -> R) : \sum_i (Rmult c (f i)) = Rmult c (\sum_i f i).
Proof. by rewrite -[RHS]/(c * _) mulr_sumr. Qed.
Lemma sumR_const n (c : R) : \sum_(i < n) c = Rmult (INR n) c.
Proof.
  elim: n => [|n IH]; first by rewrite big_ord0 /= R0E; lra.
  by rewrite big_ord_recl IH S_INR ?RE; lra.
Qed.
Lemma prod_pos n (f : 'I_n -> R) : (forall i, Rlt 0 (f i)) -> Rlt 0 (\prod_i f i).
Proof.
  move=> H. apply: (big_ind (fun x => Rlt 0 x)); [exact: Rlt_0_1| |by []].
  by move=> x y Hx Hy; rewrite ?RE; apply: Rmult_lt_0_compat.
Qed.
Lemma ln_prod n (f : 'I_n -> R) : (forall i, Rlt 0 (f i)) -> ln (\prod_i f i) = \sum_i ln (f i).
Proof.
  elim: n f => [|n IH] f H; first by rewrite !big_ord0; exact: ln_1.
  rewrite !big_ord_recl -IH //. rewrite RE ln_mult //. by apply: prod_pos => i.
Qed.

(** Quadratic forms. *)
Lemma qf_sum n (s : 'rV[R]_n) (v : 'cV[R]_n) : qf (diag_mx s) v = \sum_i (s 0 i * (v i 0 * v i 0)).
Proof.
  rewrite /qf mxE. apply: eq_bigr => i _. rewrite mul_mx_diag !mxE. by rewrite [v i 0 * _]mulrC mulrA.
Qed.
Lemma qf_add n (A B : 'M[R]_n) v : qf (A + B) v = qf A v + qf B v.
Proof. by rewrite /qf mulmxDr mulmxDl mxE. Qed.
Lemma qf_congr m n (C : 'M[R]_(m, n)) (A : 'M[R]_m) v : qf (C^T *m A *m C) v = qf A (C *m v).
Proof. by rewrite /qf trmx_mul !mulmxA. Qed.
Lemma tr11 (A : 'M[R]_1) : A^T = A.
Proof. by apply/matrixP => i j; rewrite mxE !ord1. Qed.

Lemma nonzero_entry n (v : 'cV[R]_n) : v <> 0 -> exists i, v i 0 != 0.
Proof.
  move=> H. case: (pickP (fun i => v i 0 != 0)) => [i Hi|H0]; first by exists i.
  exfalso; apply: H. apply/matrixP => i j; rewrite ord1 mxE. by move: (H0 i) => /negbFE /eqP.
Qed.

Lemma spd_unit n (A : 'M[R]_n) : spd A -> A \in unitmx.
Proof.
  move=> [HT HA]. rewrite -row_free_unit -kermx_eq0. apply/eqP/row_matrixP => i. rewrite row0.
  have H : row i (kermx A) *m A = 0 by rewrite -row_mul mulmx_ker row0.
  case: (row i (kermx A) =P 0) => // Hn. exfalso.
  have Hv : (row i (kermx A))^T <> 0.
    by move=> E; apply: Hn; rewrite -[row i _]trmxK E trmx0.
  move: (HA _ Hv). rewrite /qf trmxK H mul0mx mxE. exact: Rlt_irrefl.
Qed.

Lemma spd_inv n (A : 'M[R]_n) : spd A -> spd (invmx A).
Proof.
  move=> H. have U := spd_unit H. case: H => HT HA. split; first by rewrite trmx_inv HT.
  move=> v Hv. have -> : qf (invmx A) v = qf A (invmx A *m v).
    by rewrite /qf trmx_mul trmx_inv HT !mulmxA mulmxKV // .
  apply: HA => E. apply: Hv. by rewrite -[v](mulKVmx U) E mulmx0.
Qed.

Lemma spd_diag n (s : 'rV[R]_n) : (forall i, Rlt 0 (s 0 i)) -> spd (diag_mx s).
Proof.
  move=> Hs. split; first exact: tr_diag_mx. move=> v /nonzero_entry [k Hk]. rewrite qf_sum.
  move/eqP: Hk => Hk.
  apply: (sum_pos_one (k := k)) => [i|]; rewrite ?RE.
  - apply: Rmult_le_pos; [exact: Rlt_le|exact: Rle_0_sqr].
  - apply: Rmult_lt_0_compat; [exact: Hs|]. by apply: Rsqr_pos_lt.
Qed.

Lemma qf_diag_nonneg n (s : 'rV[R]_n) v : (forall i, Rlt 0 (s 0 i)) -> Rle 0 (qf (diag_mx s) v).
Proof.
  move=> Hs. rewrite qf_sum. apply: sum_nonneg => i. rewrite ?RE.
  apply: Rmult_le_pos; [exact: Rlt_le|exact: Rle_0_sqr].
Qed.

Lemma spd_add_congr m n (A : 'M[R]_n) (s : 'rV[R]_m) (C : 'M[R]_(m, n)) :
  spd A -> (forall i, Rlt 0 (s 0 i)) -> spd (A + C^T *m diag_mx s *m C).
Proof.
  move=> [HT HA] Hs. split.
  - by rewrite linearD /= HT !trmx_mul trmxK tr_diag_mx mulmxA.
  - move=> v Hv. rewrite qf_add qf_congr ?RE. move: (HA v Hv) (qf_diag_nonneg (C *m v) Hs) => *. lra.
Qed.

(** Determinants. *)
Lemma sylvester m n (A : 'M[R]_(m, n)) (B : 'M[R]_(n, m)) : \det (1%:M + A *m B) = \det (1%:M + B *m A).
Proof.
  pose X := block_mx (1%:M + A *m B) A 0 (1%:M : 'M[R]_n).
  pose E := block_mx (1%:M : 'M[R]_m) 0 (- B) (1%:M : 'M[R]_n).
  have D1 : \det X = \det (1%:M + A *m B) by rewrite det_ublock det1 mulr1.
  have EX : X *m E = block_mx 1%:M A (- B) 1%:M.
    rewrite /X /E mulmx_block. rewrite ?mulmx1 ?mulmx0 ?mul1mx ?mul0mx ?mulmxN ?addr0 ?add0r. by rewrite addrK.
  pose F := block_mx (1%:M : 'M[R]_m) 0 B (1%:M : 'M[R]_n).
  have DF : \det F = 1 by rewrite det_lblock !det1 mulr1.
  have DE : \det E = 1 by rewrite det_lblock !det1 mulr1.
  have FXE : F *m (X *m E) = block_mx 1%:M A 0 (1%:M + B *m A).
    rewrite EX /F mulmx_block ?mulmx1 ?mul1mx ?mul0mx ?addr0. by rewrite addrN addrC.
  have : \det (F *m (X *m E)) = \det (1%:M + B *m A) by rewrite FXE det_ublock det1 mul1r.
  by rewrite !det_mulmx DF DE mul1r mulr1 D1.
Qed.

Lemma square_alg (a b c h k : R) : a - 2%:R * b + c + h - (h + c - 2%:R * b + k) = a - k.
Proof.
  change ((a + - ((1 + 1) * b) + c + h + - (h + c + - ((1 + 1) * b) + k))%coqR = (a + - k)%coqR). ring.
Qed.

Section Conjugate.
  Variables (d p : nat) (H : 'M[R]_d) (O : 'M[R]_p) (C : 'M[R]_(p, d)).
  Hypothesis (HU : H \in unitmx) (OU : O \in unitmx) (HT : H^T = H) (OT : O^T = O).
  Let P := H + C^T *m O *m C.
  Let S := invmx O + C *m invmx H *m C^T.
  Hypothesis PU : P \in unitmx.

  (** Woodbury. *)
  Lemma woodbury : S *m (O - O *m C *m invmx P *m C^T *m O) = 1%:M.
  Proof.
    have E : C^T *m O *m C *m invmx P = 1%:M - H *m invmx P.
      have -> : C^T *m O *m C = P - H by rewrite /P addrC addKr.
      by rewrite mulmxBl mulmxV.
    rewrite /S mulmxBr !mulmxDl mulVmx //.
    have -> : invmx O *m (O *m C *m invmx P *m C^T *m O) = C *m invmx P *m C^T *m O.
      by rewrite !mulmxA mulVmx // mul1mx.
    have -> : C *m invmx H *m C^T *m (O *m C *m invmx P *m C^T *m O) = C *m invmx H *m (C^T *m O *m C *m invmx P) *m C^T *m O.
      by rewrite !mulmxA.
    rewrite E mulmxBr mulmx1 !mulmxBl.
    have -> : C *m invmx H *m (H *m invmx P) *m C^T *m O = C *m invmx P *m C^T *m O.
      by rewrite !mulmxA mulmxKV.
    rewrite [C *m invmx P *m C^T *m O + _]addrC subrK. by rewrite addrK.
  Qed.

  Lemma predictive_inverse : S \in unitmx /\ invmx S = O - O *m C *m invmx P *m C^T *m O.
  Proof.
    have W := woodbury. have U : S \in unitmx by case/mulmx1_unit: W. split => //.
    by rewrite -[RHS]mul1mx -(mulVmx U) -(mulmxA (invmx S) S) W mulmx1.
  Qed.

  Lemma predictive_det : \det S * (\det O * \det H) = \det P.
  Proof.
    have -> : P = (1%:M + C^T *m O *m C *m invmx H) *m H by rewrite mulmxDl mul1mx mulmxKV.
    rewrite det_mulmx mulrA. congr (_ * _).
    rewrite -det_mulmx /S mulmxDl mulVmx //.
    have -> : C *m invmx H *m C^T *m O = C *m (invmx H *m (C^T *m O)) by rewrite !mulmxA.
    rewrite sylvester -[in RHS]det_tr. congr (\det _).
    rewrite linearD /= trmx1 !trmx_mul trmxK trmx_inv HT OT. by rewrite !mulmxA.
  Qed.

  (** Completing the square. *)
  Lemma complete_square (m x : 'cV[R]_d) (z : 'cV[R]_p) :
    let mh := invmx P *m (H *m m + C^T *m (O *m z)) in
    qf O (z - C *m x) + qf H (x - m) - qf P (x - mh) = qf (invmx S) (z - C *m m).
  Proof.
    move=> mh. pose e := z - C *m m. pose w := x - m. pose K := invmx P.
    have PT : P^T = P by rewrite /P linearD /= HT !trmx_mul trmxK OT mulmxA.
    have KT : K^T = K by rewrite /K trmx_inv PT.
    have E1 : z - C *m x = e - C *m w.
      by rewrite /e /w mulmxBr opprB addrA subrK.
    have E2 : x - mh = w - K *m (C^T *m (O *m e)).
      have -> : mh = m + K *m (C^T *m (O *m e)).
        have {1}-> : m = K *m (P *m m) by rewrite mulmxA mulVmx // mul1mx.
        rewrite -mulmxDr /mh. congr (K *m _).
        rewrite /P mulmxDl /e !mulmxBr -addrA. congr (_ + _).
        by rewrite !mulmxA addrC subrK.
      by rewrite opprD addrA.
    have [_ ->] := predictive_inverse. rewrite -/K E1 E2 -/e -/w.
    pose g := C^T *m (O *m e).
    (* all terms are numbers *)
    have Qsub n (A : 'M[R]_n) (u v : 'cV[R]_n) : A^T = A ->
      qf A (u - v) = qf A u - 2%:R * (v^T *m A *m u) 0 0 + qf A v.
      move=> AT. rewrite /qf. have -> : (u - v)^T = u^T - v^T by rewrite linearB. rewrite !mulmxBl !mulmxBr.
      have -> : u^T *m A *m v = v^T *m A *m u by rewrite -[LHS]tr11 !trmx_mul trmxK AT mulmxA.
      rewrite !mxE /=. by rewrite ?RE -[2%:R]/(1 + 1) ?RE R1E; ring.
    rewrite (Qsub _ O) // (Qsub _ P) //.
    have -> : ((C *m w)^T *m O *m e) 0 0 = (w^T *m g) 0 0 by rewrite trmx_mul /g !mulmxA.
    have -> : qf O (C *m w) = qf (C^T *m O *m C) w by rewrite qf_congr.
    have -> : ((K *m g)^T *m P *m w) 0 0 = (w^T *m g) 0 0.
      rewrite trmx_mul KT -!mulmxA [K *m (P *m w)]mulmxA mulVmx // mul1mx.
      by rewrite -[g^T *m w]tr11 trmx_mul trmxK.
    have -> : qf P (K *m g) = (g^T *m K *m g) 0 0.
      by rewrite /qf trmx_mul KT -!mulmxA [P *m (K *m g)]mulmxA mulmxV // mul1mx.
    have -> : qf (O - O *m C *m K *m C^T *m O) e = qf O e - (g^T *m K *m g) 0 0.
      have -> : g^T *m K *m g = e^T *m (O *m C *m K *m C^T *m O) *m e.
        by rewrite /g !trmx_mul trmxK OT !mulmxA.
      have Q2 (X : 'M[R]_p) (v : 'cV[R]_p) : qf (O - X) v = qf O v - (v^T *m X *m v) 0 0.
        by rewrite /qf mulmxBr mulmxBl !mxE.
      exact: Q2.
    rewrite /P qf_add. exact: square_alg.
  Qed.
End Conjugate.
