(** Concrete ingredients for the floating point theorems: a correctly rounded exponential function, summation from
    the left. *)
From Coq Require Import ZArith Reals List Bool Lia Lra.
From Flocq Require Import Core.Core IEEE754.BinarySingleNaN.
From Coquelicot Require Import Rcomplements.
From Verif.Model Require Import Base FloatResampling.
From Verif.Spec Require Import FloatSpec.
From Verif.Proofs Require Import FloatProofs FloatNormalize.
Import ListNotations.
Open Scope R_scope.

Section Examples.
  Context {prec emax : Z} {Hp : Prec_gt_0 prec} {He : Prec_lt_emax prec emax}.
  Notation float := (binary_float prec emax).
  Notation fe := (SpecFloat.fexp prec emax).
  Notation rnd := (@FloatProofs.rnd prec emax).
  Notation eps := (@FloatProofs.eps prec).

  Definition rounded_exp (x : float) : float :=
    match x with
    | B754_zero _ => Bone
    | B754_finite _ _ _ _ =>
        let y := exp (B2R x) in
        binary_normalize prec emax Hp He mode_NE (ZnearestE (scaled_mantissa radix2 fe y)) (cexp radix2 fe y) false
    | B754_infinity true => B754_zero false
    | _ => x
    end.

  Lemma rounded_exp_ok : exponential eps rounded_exp.
  Proof.
    split; [reflexivity|]. split; [reflexivity|]. split; [reflexivity|].
    intros x F Hx. pose proof (exp_pos (B2R x)) as P.
    assert (U : exp (B2R x) <= 1).
    { rewrite <- exp_0. destruct Hx as [Hx| ->]; [left; now apply exp_increasing|lra]. }
    assert (E : is_finite (rounded_exp x) = true /\ B2R (rounded_exp x) = rnd (exp (B2R x))).
    { destruct x as [s|s| |s m e Hb]; try discriminate F.
      - change (rounded_exp (B754_zero s)) with (Bone : float). change (B2R (B754_zero s : float)) with 0.
        rewrite exp_0, Bone_R, Bone_F, rnd_id by apply fmt_1. split; reflexivity.
      - cbn [rounded_exp]. set (x := B754_finite s m e Hb) in *. cbv zeta.
        pose proof (binary_normalize_correct prec emax Hp He mode_NE (ZnearestE (scaled_mantissa radix2 fe (exp (B2R x)))) (cexp radix2 fe (exp (B2R x))) false) as C.
        cbv zeta in C.
        change (F2R (Float radix2 (ZnearestE (scaled_mantissa radix2 fe (exp (B2R x)))) (cexp radix2 fe (exp (B2R x))))) with (rnd (exp (B2R x))) in C.
        change (round radix2 (SpecFloat.fexp prec emax) (round_mode mode_NE) (rnd (exp (B2R x)))) with (rnd (rnd (exp (B2R x)))) in C.
        rewrite (rnd_id (rnd (exp (B2R x)))) in C by apply fmt_rnd.
        rewrite Rlt_bool_true in C; [destruct C as (C1 & C2 & _); split; assumption|].
        rewrite Rabs_pos_eq by (apply rnd_nonneg; lra). apply Rle_lt_trans with 1; [apply rnd_le_fmt; [apply fmt_1|exact U]|].
        change 1 with (bpow radix2 0). apply bpow_lt. pose proof (prec_emax (prec := prec) (emax := emax)). pose proof (prec_pos (prec := prec)). lia. }
    destruct E as (E1 & E2). rewrite E2. split; [exact E1|]. split.
    - split; [apply rnd_nonneg; lra|]. apply rnd_le_fmt; [apply fmt_1|exact U].
    - apply rnd_error_1. rewrite Rabs_pos_eq; lra.
  Qed.

  Definition sum_left (l : list float) : float := fold_left fadd l (B754_zero false).
  Lemma sum_left_ok : adds_up sum_left.
  Proof.
    unfold adds_up, sum_left. assert (H : forall l k a, added_up k a -> added_up (k ++ l) (fold_left fadd l a)).
    { induction l as [|x l IH]; intros k a Ha; simpl; [now rewrite app_nil_r|].
      replace (k ++ x :: l) with ((k ++ [x]) ++ l) by now rewrite <- app_assoc.
      apply IH. apply Added_two; [exact Ha|apply Added_one]. }
    intros l. apply (H l []). constructor.
  Qed.
End Examples.
