(** The real numbers of the standard library as a mathcomp field, to use mathcomp's matrices.  Nothing here depends on
    the code of pyfilter.  The choice structure rests on the standard library's indefinite description. *)
From Coq Require Import Reals Lra.
From Coq.Logic Require Import ClassicalEpsilon.
From mathcomp Require Import all_ssreflect all_algebra.
Set Implicit Arguments.
Unset Strict Implicit.
Unset Printing Implicit Defensive.

(** mathcomp takes the key %R. *)
Delimit Scope R_scope with coqR.
Local Open Scope R_scope.

Definition Req_b (x y : R) : bool := if Req_EM_T x y then true else false.
Lemma Req_bP : Equality.axiom Req_b.
Proof. by move=> x y; rewrite /Req_b; case: Req_EM_T => H; constructor. Qed.
Canonical R_eqMixin := EqMixin Req_bP.
Canonical R_eqType := Eval hnf in EqType R R_eqMixin.

Definition R_find (P : pred R) (n : nat) : option R :=
  match excluded_middle_informative (exists x, P x) with
  | left H => Some (proj1_sig (constructive_indefinite_description (fun x => P x) H))
  | right _ => None
  end.
Lemma R_find_correct P n x : R_find P n = Some x -> P x.
Proof.
  rewrite /R_find; case: excluded_middle_informative => // H [] <-.
  by case: (constructive_indefinite_description _ H).
Qed.
Lemma R_find_complete (P : pred R) : (exists x, P x) -> exists n, R_find P n.
Proof. by move=> H; exists 0%N; rewrite /R_find; case: excluded_middle_informative. Qed.
Lemma R_find_ext (P Q : pred R) : P =1 Q -> R_find P =1 R_find Q.
Proof.
  move=> E n. have -> : P = Q by apply: FunctionalExtensionality.functional_extensionality. by [].
Qed.
Definition R_choiceMixin : choiceMixin R :=
  Choice.Mixin R_find_correct R_find_complete R_find_ext.
Canonical R_choiceType := Eval hnf in ChoiceType R R_choiceMixin.

Lemma R_addA : associative Rplus. Proof. by move=> x y z; ring. Qed.
Lemma R_addC : commutative Rplus. Proof. by move=> x y; ring. Qed.
Lemma R_add0 : left_id 0 Rplus. Proof. by move=> x; ring. Qed.
Lemma R_addN : left_inverse 0 Ropp Rplus. Proof. by move=> x; ring. Qed.
Definition R_zmodMixin := ZmodMixin R_addA R_addC R_add0 R_addN.
Canonical R_zmodType := Eval hnf in ZmodType R R_zmodMixin.

Lemma R_mulA : associative Rmult. Proof. by move=> x y z; ring. Qed.
Lemma R_mulC : commutative Rmult. Proof. by move=> x y; ring. Qed.
Lemma R_mul1 : left_id 1 Rmult. Proof. by move=> x; ring. Qed.
Lemma R_mulD : left_distributive Rmult Rplus. Proof. by move=> x y z; ring. Qed.
Lemma R_one : (1 : R) != 0. Proof. by apply/eqP; lra. Qed.
Definition R_ringMixin := ComRingMixin R_mulA R_mulC R_mul1 R_mulD R_one.
Canonical R_ringType := Eval hnf in RingType R R_ringMixin.
Canonical R_comRingType := Eval hnf in ComRingType R R_mulC.

Definition R_inv (x : R) : R := if x != 0 then / x else 0.
Lemma R_mulV (x : R) : x != 0 -> R_inv x * x = 1.
Proof. by move=> H; rewrite /R_inv H; field; apply/eqP. Qed.
Lemma R_inv0 : R_inv 0 = 0.
Proof. by rewrite /R_inv eqxx. Qed.
Definition R_unitRingMixin := FieldUnitMixin R_mulV R_inv0.
Canonical R_unitRingType := Eval hnf in UnitRingType R R_unitRingMixin.
Canonical R_comUnitRingType := Eval hnf in [comUnitRingType of R].
Lemma R_fieldMixin : GRing.Field.mixin_of R_unitRingType. Proof. by []. Qed.
Definition R_idomainMixin := FieldIdomainMixin R_fieldMixin.
Canonical R_idomainType := Eval hnf in IdomainType R R_idomainMixin.
Canonical R_fieldType := Eval hnf in FieldType R R_fieldMixin.
