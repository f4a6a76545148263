(** Properties C67 (pyfilter/inference/prior.py:10-29, 141-152) and C73 (pyfilter/inference/context.py:245-253). *)
From Coq Require Import Reals Lra List Bool Arith String Lia.
From Verif.Model Require Import Base Xf Prior Context.
From Verif.Spec Require Import ContextSpec.
From Verif.Proofs Require Import ContextProofs ContextHeap.
From Verif.Props Require Import ContextProps ContextUpdateProps ContextStackingProps ContextLoadProps.
Import ListNotations.
Local Open Scope list_scope.
Local Open Scope nat_scope.

(** * C67 *)
Lemma any_all x y : any_ne x y = match all_eq x y with Ok b => Ok (negb b) | Raise e => Raise e end.
Proof.
  unfold any_ne, all_eq. destruct (broadcast x y) as [l|e]; [|reflexivity]. cbn. f_equal.
  induction l as [|q l IH]; [reflexivity|]. cbn. rewrite IH. now destruct xeqb.
Qed.
Lemma xeqb_sym a b : xeqb a b = xeqb b a.
Proof. destruct a, b; cbn; try reflexivity. destruct (Req_EM_T r r0), (Req_EM_T r0 r); congruence. Qed.
Lemma forallb_map {A B} (f : A -> B) p l : forallb p (map f l) = forallb (fun a => p (f a)) l.
Proof. induction l; cbn; [reflexivity|now rewrite IHl]. Qed.
Lemma combine_swap (x y : list xf) : List.length x = List.length y -> forallb (fun q => xeqb (fst q) (snd q)) (combine x y) = forallb (fun q => xeqb (fst q) (snd q)) (combine y x).
Proof. revert y. induction x as [|a x IH]; intros [|b y] L; try discriminate; [reflexivity|]. cbn. rewrite xeqb_sym, IH by (cbn in L; lia). reflexivity. Qed.
Lemma all_eq_sym x y : all_eq x y = all_eq y x.
Proof.
  unfold all_eq, broadcast. destruct x as [|a [|a' x]], y as [|b [|b' y]]; cbn; try reflexivity; try (rewrite xeqb_sym; reflexivity).
  - rewrite !forallb_map. cbn. rewrite (xeqb_sym b a), (xeqb_sym b' a). do 3 f_equal. induction y as [|e y IH]; cbn; [reflexivity|]. rewrite IH, (xeqb_sym e a). reflexivity.
  - rewrite !forallb_map. cbn. rewrite (xeqb_sym a b), (xeqb_sym a' b). do 3 f_equal. induction x as [|e x IH]; cbn; [reflexivity|]. rewrite IH, (xeqb_sym e b). reflexivity.
  - destruct (Nat.eqb_spec (List.length x) (List.length y)) as [E|E].
    + rewrite E, Nat.eqb_refl. cbn. rewrite (xeqb_sym b a), (xeqb_sym b' a'), (combine_swap y x) by auto. reflexivity.
    + destruct (Nat.eqb_spec (List.length y) (List.length x)); [congruence|reflexivity].
Qed.
Lemma same_args_true args y : same_args args y = Ok true <-> forall k v, In (k, v) args -> exists v', od_get k (d_args y) = Some v' /\ all_eq v v' = Ok true.
Proof.
  induction args as [|[k v] r IH]; cbn; [split; [intros _ k v []|reflexivity]|]. split.
  - intros E. destruct (od_get k (d_args y)) as [v'|] eqn:G; [|discriminate]. rewrite any_all in E. destruct (all_eq v v') as [[|]|] eqn:Q; try discriminate. cbn in E.
    intros k1 v1 [[= <- <-]|I]; [eauto|]. now apply IH.
  - intros H. destruct (H k v) as (v' & -> & Q); [now left|]. rewrite any_all, Q. cbn. apply IH. intros. apply H. now right.
Qed.
Lemma equivalent_iff x y : equivalent_to x y = Ok true <->
  d_class x = d_class y /\ forall k v, In (k, v) (d_args x) -> exists v', od_get k (d_args y) = Some v' /\ all_eq v v' = Ok true.
Proof.
  unfold equivalent_to, verify_same_prior. destruct (String.eqb_spec (d_class x) (d_class y)) as [E|E].
  - rewrite same_args_true. tauto.
  - split; [discriminate|tauto].
Qed.

(** Two equivalent distributions whose arguments have the same names and shapes are of the same class with the same
    arguments. *)
Theorem C67_sound_partial : forall x y, equivalent_to x y = Ok true ->
  d_class x = d_class y /\
  forall k v v', In (k, v) (d_args x) -> od_get k (d_args y) = Some v' -> List.length v = List.length v' -> v = v'.
Proof.
  intros x y E. apply equivalent_iff in E. destruct E as [E H]. split; [exact E|]. intros k v v' I G L. destruct (H k v I) as (v'' & G' & Q).
  rewrite G in G'. injection G' as <-. now apply all_eq_sound in Q.
Qed.
Print Assumptions C67_sound_partial.

(** Without NaN among its arguments a distribution is equivalent to itself, and only then. *)
Theorem C67_reflexive : forall x, NoDup (map fst (d_args x)) ->
  (equivalent_to x x = Ok true <-> forall k v, In (k, v) (d_args x) -> no_nan v).
Proof.
  intros x ND. rewrite equivalent_iff. split.
  - intros [_ H] k v I. destruct (H k v I) as (v' & G & Q). rewrite (od_in_get k (d_args x) v ND I) in G. injection G as <-.
    unfold all_eq in Q. destruct (broadcast v v) as [l|] eqn:B; [|discriminate]. cbn in Q. injection Q as Q. rewrite forallb_forall in Q.
    apply Forall_forall. intros a J ->. assert (F : In (NaN, NaN) l); [|apply Q in F; discriminate F].
    unfold broadcast in B. destruct v as [|a [|b v]]; [easy|injection B as <-; destruct J as [->|[]]; now left|]. rewrite Nat.eqb_refl in B. injection B as <-.
    clear - J. change (In (NaN, NaN) (combine (a :: b :: v) (a :: b :: v))). revert J. generalize (a :: b :: v) as l.
    induction l as [|q l IH]; intros J; [easy|]. destruct J as [->|J]; [now left|right; auto].
  - intros N. split; [reflexivity|]. intros k v I. exists v. split; [now apply od_in_get|]. apply all_eq_refl. eauto.
Qed.
Print Assumptions C67_reflexive.

(** Two objects of the same class have the same argument names; then equivalence is symmetric. *)
Theorem C67_symmetric : forall x y, NoDup (map fst (d_args x)) -> map fst (d_args y) = map fst (d_args x) ->
  equivalent_to x y = Ok true -> equivalent_to y x = Ok true.
Proof.
  intros x y ND K E. apply equivalent_iff in E. destruct E as [E H]. apply equivalent_iff. split; [now symmetry|]. intros k v' I.
  assert (J : In k (map fst (d_args x))) by (rewrite <- K; now apply (in_map fst) in I). apply in_map_iff in J. destruct J as ([k0 v] & <- & J). cbn in *.
  exists v. split; [now apply od_in_get|]. destruct (H k0 v J) as (v'' & G & Q). rewrite (od_in_get k0 (d_args y) v') in G; [|now rewrite K|exact I]. injection G as <-.
  now rewrite all_eq_sym.
Qed.
Print Assumptions C67_symmetric.

(** Equivalent priors with different densities: of a class without [arg_constraints]; or with an argument broadcast. *)
Theorem C67_refuted : exists x y, equivalent_to x y = Ok true /\ forall r, d_logp x r <> d_logp y r.
Proof. exists (wrapped 1), (wrapped 2). split; [reflexivity|]. intros r E. cbn in E. injection E as E. lra. Qed.
Print Assumptions C67_refuted.
Definition vector_prior (n : nat) : dist := Dist "Dirichlet" [("concentration"%string, repeat (Fin 1) n)] 0 false [n] [n - 1] (fun _ => true) (fun x => x) (fun x => x) (fun _ => Fin 0) (fun _ => Fin 0).
Theorem C67_broadcast_refuted : equivalent_to (vector_prior 3) (vector_prior 1) = Ok true /\ d_event (vector_prior 3) <> d_event (vector_prior 1).
Proof. split; [|discriminate]. cbv -[IZR Req_EM_T]. destruct (Req_EM_T 1 1) as [_|N]; [reflexivity|exfalso; now apply N]. Qed.
(** Comparing arguments of other shapes raises. *)
Theorem C67_raises_refuted : equivalent_to (vector_prior 3) (vector_prior 2) = Raise RuntimeError.
Proof. reflexivity. Qed.
Theorem C67_nan_refuted : exists x, equivalent_to x x = Ok false.
Proof. exists (Dist "Normal" [("loc"%string, [NaN]); ("scale"%string, [Fin 1])] 0 false [] [] (fun _ => true) (fun x => x) (fun x => x) (fun _ => Fin 0) (fun _ => Fin 0)). reflexivity. Qed.

Example C67_nonvacuous : equivalent_to normal_prior normal_prior = Ok true /\ NoDup (map fst (d_args normal_prior)) /\
  (forall k v, In (k, v) (d_args normal_prior) -> no_nan v) /\ equivalent_to normal_prior shifted_prior = Ok false.
Proof.
  split; [apply normal_same|]. split; [repeat constructor; cbn; try tauto; intros [F|[]]; discriminate|]. split.
  - intros k v [[= <- <-]|[[= <- <-]|[]]]; repeat constructor; discriminate.
  - cbv -[IZR Req_EM_T]. destruct (Req_EM_T 0 1) as [N|_]; [exfalso; apply R1_neq_R0; now symmetry|reflexivity].
Qed.

(** * C73 *)
Lemma xadd_assoc a b c : xadd (xadd a b) c = xadd a (xadd b c).
Proof. destruct a, b, c; cbn; try reflexivity. f_equal. ring. Qed.
Lemma xadd_comm a b : xadd a b = xadd b a.
Proof. destruct a, b; cbn; try reflexivity. f_equal. ring. Qed.
Lemma xadd_0_r a : xadd a (Fin 0) = a.
Proof. destruct a; cbn; try reflexivity. f_equal. ring. Qed.
Lemma add_rows_spec k (f g : nat -> xf) : add_rows (map f (seq 0 k)) (map g (seq 0 k)) = Ok (map (fun b => xadd (f b) (g b)) (seq 0 k)).
Proof. generalize 0 as s. induction k as [|k IH]; intros s; [reflexivity|]. cbn. rewrite IH. reflexivity. Qed.
Lemma sum_from_spec k (l : list (nat -> xf)) : forall f, sum_from (map f (seq 0 k)) (map (fun g => map g (seq 0 k)) l) =
  Ok (map (fun b => xadd (f b) (fold_right xadd (Fin 0) (map (fun g => g b) l))) (seq 0 k)).
Proof.
  induction l as [|g l IH]; intros f; cbn.
  - f_equal. apply map_ext. intros. now rewrite xadd_0_r.
  - rewrite add_rows_spec. cbn. rewrite IH. f_equal. apply map_ext. intros. now rewrite xadd_assoc.
Qed.
(** Evaluating the priors gives, for each entry of the batch, the sum of the log densities of that entry's samples. *)
Theorem C73_eval_priors : forall sample w c constrained, reached sample w -> exists_ctx w c -> names w c <> [] ->
  eval_priors c constrained w =
    (w, Ok (Some (map (fun b => fold_right xadd (Fin 0) (map (log_density w c constrained b) (names w c))) (seq 0 (batch_size w c))))).
Proof.
  intros sample w c constrained RC H N. pose proof (reached_coherent _ _ RC) as C. unfold eval_priors. unfold abind at 1, get_ctx. fold (ctx_at w c).
  set (h := fun np : string * nat => map (fun b => log_density w c constrained b (fst np)) (seq 0 (batch_size w c))).
  unfold abind at 1. rewrite (collect_pure _ h).
  2:{ intros [n p] I. unfold eval_prior. unfold abind at 1. rewrite param_value_eq. destruct (batch_fits w c n p C H I) as (d & D & _ & L & _).
      unfold abind. cbn [snd]. rewrite (prior_of_eq w w c n p d) by auto. unfold ret, h, log_density, entry, value. cbn [fst]. rewrite D, (proj1 (param_in w c n p C H) I). cbn [option_map].
      do 2 f_equal. rewrite <- L. generalize (t_rows (value_at w p)) as rows. clear.
      assert (M : forall (f : list xf -> xf) rows, map f rows = map (fun b => match nth_error rows b with Some row => f row | None => NaN end) (seq 0 (List.length rows))).
      { intros f rows. induction rows as [|r rows IH]; [reflexivity|]. cbn. f_equal. rewrite IH, <- seq_shift, map_map. reflexivity. }
      intros rows. destruct constrained; apply M. }
  unfold names in *. destruct (x_params (ctx_at w c)) as [|np l]; [now contradiction N|]. cbn [map]. unfold abind, lift. unfold h at 1. rewrite map_map.
  replace (map h l) with (map (fun g => map g (seq 0 (batch_size w c))) (map (fun np b => log_density w c constrained b (fst np)) l)) by (rewrite map_map; reflexivity).
  rewrite sum_from_spec. unfold ret. do 3 f_equal. apply map_ext. intros b. cbn [fold_right]. rewrite (xadd_comm (Fin 0)), xadd_0_r, !map_map. reflexivity.
Qed.
Print Assumptions C73_eval_priors.
(** For a context without parameters the number 0 is returned. *)
Theorem C73_empty : forall w c constrained, names w c = [] -> eval_priors c constrained w = (w, Ok None).
Proof.
  intros w c constrained N. unfold eval_priors, abind, get_ctx. fold (ctx_at w c). unfold names in N. destruct (x_params (ctx_at w c)); [reflexivity|discriminate].
Qed.
Print Assumptions C73_empty.

Definition wavy (a b : R) : dist := Dist "Normal" [] 0 false [] [] (fun _ => true) (fun x => x) (fun x => x) (fun r => match r with [Fin x] => Fin (a + x)%R | _ => NaN end) (fun _ => Fin b).
Example C73_nonvacuous : let w := history numbered [ONew None; OShape 0 [2]; ORegister 0 "a" (wavy 1 2); ORegister 0 "b" (wavy 3 4)] no_world in
  reached numbered w /\ exists_ctx w 0 /\ names w 0 <> [] /\
  snd (eval_priors 0 true w) = Ok (Some [Fin 4; Fin 24]) /\ snd (eval_priors 0 false w) = Ok (Some [Fin 6; Fin 6]).
Proof.
  intros w. split; [split; [apply numbered_ok|]; eexists; split; [|reflexivity]; repeat constructor|]. split; [cbv; lia|]. split.
  - replace (names w 0) with ["a"%string; "b"%string] by (cbv -[INR IZR]; reflexivity). discriminate.
  - split; cbv -[INR IZR Rplus]; repeat f_equal; cbn [INR]; lra.
Qed.
