(** Cholesky factors exist, and determine the density of a normal vector. *)
From Coq Require Import Reals Lra.
From mathcomp Require Import all_ssreflect all_algebra.
From Verif.Spec Require Import RealField LinAlgSpec.
From Verif.Model Require Import Base ProposalMx.
From Verif.Proofs Require Import LinAlgProofs.
Set Implicit Arguments.
Unset Strict Implicit.
Unset Printing Implicit Defensive.
Import GRing.Theory.
Local Open Scope ring_scope.

Ltac as_R := match goal with |- @eq _ ?a ?b => change (@eq R a b) end.

Definition factor n (A L : 'M[R]_n) : Prop :=
  L *m L^T = A /\ (forall i j : 'I_n, (i < j)%N -> L i j = 0) /\ forall i, Rlt 0 (L i i).

Lemma qf_block n (a : R) (b : 'cV[R]_n) (D : 'M[R]_n) (u : 'cV[R]_1) (v : 'cV[R]_n) :
  qf (block_mx a%:M b^T b D) (col_mx u v) = (u^T *m a%:M *m u + v^T *m b *m u + (u^T *m b^T *m v + v^T *m D *m v)) 0 0.
Proof. by rewrite /qf tr_col_mx mul_row_block mul_row_col !mulmxDl. Qed.

Lemma schur_spd n (a : R) (b : 'cV[R]_n) (D : 'M[R]_n) : D^T = D ->
  spd (block_mx a%:M b^T b D : 'M[R]_(1 + n)) -> Rlt 0 a /\ spd (D - a^-1 *: (b *m b^T)).
Proof.
  move=> DT [_ HA].
  have Ha : Rlt 0 a.
    have Hv : col_mx (1%:M : 'M[R]_1) (0 : 'cV[R]_n) <> 0.
      move=> E. have := congr1 (fun X : 'M[R]_(1 + n, 1) => X (lshift n 0) 0) E. rewrite col_mxEu !mxE /=.
      by move/eqP; rewrite oner_eq0.
    move: (HA _ Hv). rewrite qf_block trmx1 trmx0 mul1mx mulmx1 !mul0mx !mulmx0 !addr0 mxE. by rewrite mulr1n.
  have Hu : a != 0 by apply/eqP => E; move: Ha; rewrite E; exact: Rlt_irrefl.
  split => //. split.
    by rewrite linearB /= DT linearZ /= trmx_mul trmxK.
  move=> v Hv. pose u : 'cV[R]_1 := - (a^-1 *: (b^T *m v)).
  have Hc : col_mx u v <> 0.
    move=> E. apply: Hv. by have := congr1 dsubmx E; rewrite col_mxKd linear0.
  move: (HA _ Hc). rewrite qf_block. rewrite [X in Rlt _ X -> _](_ : _ = qf (D - a^-1 *: (b *m b^T)) v) //.
  rewrite /qf mulmxBr mulmxBl. congr (fun_of_matrix _ 0 0).
  have -> : u^T = - (a^-1 *: (v^T *m b)) by rewrite /u linearN linearZ /= trmx_mul trmxK.
  rewrite /u !mulNmx !mulmxN opprK -!scalemxAl -!scalemxAr.
  have -> : a^-1 *: (a^-1 *: (v^T *m b *m a%:M *m (b^T *m v))) = a^-1 *: (v^T *m b *m (b^T *m v)).
    by rewrite mul_mx_scalar -scalemxAl !scalerA mulrC mulrA mulfV // mul1r.
  rewrite !mulmxA addrN add0r addrC. by rewrite -scalemxAl.
Qed.

Lemma cholesky_exists n (A : 'M[R]_n) : spd A -> exists L, factor A L.
Proof.
  elim: n A => [|n IH] A HA.
    exists 0. split; first by apply/matrixP => i; case: i. split; by case.
  change ('M[R]_(1 + n)) in A.
  pose a := ulsubmx A 0 0. pose b := dlsubmx A. pose D := drsubmx A.
  have EA : A = block_mx a%:M b^T b D.
    rewrite -[LHS]submxK. congr block_mx.
    - by apply/matrixP => i j; rewrite [i]ord1 [j]ord1 [RHS]mxE eqxx mulr1n.
    - by rewrite /b trmx_dlsub (proj1 HA).
  have DT : D^T = D by rewrite /D trmx_drsub (proj1 HA).
  have [Ha HS] : Rlt 0 a /\ spd (D - a^-1 *: (b *m b^T)).
    by apply: schur_spd => //; rewrite -EA.
  have [L' [E1 [E2 E3]]] := IH _ HS.
  pose r : R := sqrt a. have Hr : Rlt 0 r by apply: sqrt_lt_R0.
  have Er : r * r = a by apply: sqrt_sqrt; apply: Rlt_le.
  have Hr0 : r != 0 by apply/eqP => E; move: Hr; rewrite E; exact: Rlt_irrefl.
  pose L : 'M[R]_(1 + n) := block_mx r%:M 0 (r^-1 *: b) L'.
  have EL : L *m L^T = block_mx a%:M b^T b D.
    rewrite /L tr_block_mx mulmx_block trmx0 tr_scalar_mx !mulmx0 !mul0mx !addr0 linearZ /=. congr block_mx.
    + by rewrite -scalar_mxM Er.
    + by rewrite mul_scalar_mx scalerA mulfV // scale1r.
    + by rewrite mul_mx_scalar scalerA mulfV // scale1r.
    + rewrite E1 -scalemxAl -scalemxAr scalerA -invfM Er. by rewrite addrC subrK.
  have LL (i j : 'I_(1 + n)) : (i < j)%N -> L i j = 0.
    rewrite /L. case: (split_ordP i) => i' ->; case: (split_ordP j) => j' ->.
    + by rewrite (ord1 i') (ord1 j') ltnn.
    + by rewrite block_mxEur mxE.
    + by rewrite (ord1 j').
    + rewrite block_mxEdr /= !add1n ltnS. exact: E2.
  have LD (i : 'I_(1 + n)) : Rlt 0 (L i i).
    rewrite /L. case: (split_ordP i) => i' ->.
    + by rewrite (ord1 i') block_mxEul mxE eqxx mulr1n.
    + by rewrite block_mxEdr.
  exists L. split; last by split. by rewrite EA -EL.
Qed.

Lemma factor_det n (A L : 'M[R]_n) : factor A L ->
  Rlt 0 (\det A) /\ ln (\det A) = Rmult 2 (\sum_i ln (L i i)).
Proof.
  move=> [<- [Hl Hd]].
  have Ht : \det L = \prod_i L i i by apply: det_trig; apply/is_trig_mxP.
  have Hp : Rlt 0 (\det L) by rewrite Ht; exact: prod_pos.
  rewrite det_mulmx det_tr RE. split; first exact: Rmult_lt_0_compat.
  rewrite ln_mult // Ht ln_prod //. lra.
Qed.

Lemma spd_det n (A : 'M[R]_n) : spd A -> Rlt 0 (\det A).
Proof. move=> /cholesky_exists [L /factor_det []] //. Qed.

Lemma factor_unit n (A L : 'M[R]_n) : factor A L -> L \in unitmx.
Proof.
  move=> [_ [Hl Hd]]. rewrite unitmxE unitfE det_trig; last exact/is_trig_mxP.
  apply/eqP => E. move: (prod_pos Hd). rewrite E. exact: Rlt_irrefl.
Qed.

Lemma factor_qf n (A L : 'M[R]_n) (v : 'cV[R]_n) : factor A L ->
  \sum_i ((invmx L *m v) i 0%R * (invmx L *m v) i 0%R)%coqR = qf (invmx A) v.
Proof.
  move=> F. have U := factor_unit F. case: F => E _.
  have UT : L^T \in unitmx by rewrite unitmx_tr.
  have -> : invmx A = (invmx L)^T *m invmx L.
    have U2 : A \in unitmx by rewrite -E unitmx_mul U UT.
    apply: (can_inj (mulKmx U2)). rewrite mulmxV // -E trmx_inv.
    by rewrite -!mulmxA [L^T *m _]mulmxA mulmxV // mul1mx mulmxV.
  rewrite -[(invmx L)^T]mulmx1 qf_congr /qf mulmx1 mxE. apply: eq_bigr => i _. by rewrite [X in _ = X * _]mxE.
Qed.

Lemma multivariate_log_mvn n (A L : 'M[R]_n) (loc v : 'cV[R]_n) : factor A L ->
  multivariate_logp loc L v = log_mvn loc A v.
Proof.
  move=> F. rewrite /multivariate_logp /log_mvn (factor_qf _ F). have [_ ->] := factor_det F.
  set q := qf _ _. set s := \sum_i _. lra.
Qed.

(** Diagonal covariances. *)
Lemma diag_factor n (s : 'cV[R]_n) : (forall i, Rlt 0 (s i 0)) -> factor (diag_sq s) (diag_mx s^T).
Proof.
  move=> Hs. split; last split.
  - rewrite tr_diag_mx /diag_sq. apply/matrixP => i j. rewrite mul_diag_mx !mxE. by rewrite mulrnAr.
  - move=> i j Hij. rewrite !mxE. by rewrite -val_eqE /= (ltn_eqF Hij) mulr0n.
  - move=> i. by rewrite !mxE eqxx mulr1n.
Qed.

Lemma diag_neg2 n (s : 'cV[R]_n) : (forall i, Rlt 0 (s i 0)) ->
  construct_diag_from_flat (pow_neg2 s) = invmx (diag_sq s) /\ diag_sq s \in unitmx.
Proof.
  move=> Hs. have U : diag_sq s \in unitmx.
    rewrite unitmxE unitfE. apply/eqP => E. have [H _] := factor_det (diag_factor Hs). move: H. rewrite E. exact: Rlt_irrefl.
  split => //. apply: (can_inj (mulKmx U)). rewrite mulmxV //.
  rewrite /diag_sq /construct_diag_from_flat mulmx_diag. rewrite -diag_const_mx. congr (diag_mx _).
  apply/rowP => i. rewrite !mxE !RE R1E. as_R. field. move: (Hs i). lra.
Qed.

Lemma sum_form n (c : R) (q l : 'I_n -> R) :
  \sum_i (- (1 / 2) * (c + q i) + - l i)%coqR = (- (1 / 2) * (INR n * c + \sum_i q i) - \sum_i l i)%coqR.
Proof.
  elim: n q l => [|n IH] q l; first by rewrite !big_ord0 R0E /=; lra.
  rewrite !big_ord_recl IH S_INR !RE.
  set a := \sum_i q _. set b := \sum_i l _. set u := q _. set w := l _. as_R. lra.
Qed.

Lemma rnormal_alg (loc s v : R) : Rlt 0 s ->
  rnormal_logp loc s v = (- (1 / 2) * (ln (2 * PI) + / s * (v - loc) * (/ s * (v - loc))) + - ln s)%coqR.
Proof.
  move=> Hs. rewrite /rnormal_logp.
  have -> : ln (sqrt (2 * PI)) = (/ 2 * ln (2 * PI))%coqR.
    have HP : (0 < 2 * PI)%coqR by move: PI_RGT_0; lra.
    rewrite -{2}(sqrt_sqrt (2 * PI)); last lra. rewrite ln_mult; [field|exact: sqrt_lt_R0|exact: sqrt_lt_R0].
  field. lra.
Qed.

Lemma independent_log_mvn n (loc s v : 'cV[R]_n) : (forall i, Rlt 0 (s i 0)) ->
  independent_logp loc s v = log_mvn loc (diag_sq s) v.
Proof.
  move=> Hs. rewrite -(multivariate_log_mvn _ _ (diag_factor Hs)) /multivariate_logp /independent_logp.
  have -> : invmx (diag_mx s^T) = diag_mx (\row_i (/ (s i 0%R))%coqR).
    have U := factor_unit (diag_factor Hs).
    apply: (can_inj (mulKmx U)). rewrite mulmxV // mulmx_diag -diag_const_mx. congr (diag_mx _).
    apply/rowP => i. rewrite !mxE !RE R1E. as_R. field. move: (Hs i). lra.
  have Z (i : 'I_n) : (diag_mx (\row_i (/ (s i 0%R))%coqR) *m (v - loc)) i 0 = (/ (s i 0%R) * (v i 0%R - loc i 0%R))%coqR.
    by rewrite mul_diag_mx !mxE.
  have W (i : 'I_n) : (diag_mx s^T) i i = s i 0 by rewrite !mxE eqxx mulr1n.
  rewrite -(sum_form (ln (2 * PI)) (fun i => ((diag_mx (\row_i (/ (s i 0%R))%coqR) *m (v - loc)%R) i 0%R *
       (diag_mx (\row_i (/ (s i 0%R))%coqR) *m (v - loc)%R) i 0%R)%coqR) (fun i => ln ((diag_mx s^T) i i))).
  apply: eq_bigr => i _. rewrite Z W. exact: rnormal_alg.
Qed.
