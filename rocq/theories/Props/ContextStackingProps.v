(** Properties C40, C41 (pyfilter/inference/context.py:193-236, pyfilter/inference/parameter.py:68-87). *)
From Coq Require Import Reals Lra List Bool Arith String Lia.
From Verif.Model Require Import Base Xf Prior Context.
From Verif.Spec Require Import ContextSpec.
From Verif.Proofs Require Import ContextProofs ContextHeap.
From Verif.Props Require Import ContextProps ContextUpdateProps.
Import ListNotations.
Local Open Scope list_scope.
Local Open Scope nat_scope.

(** * Stacking *)
Lemma collect_pure {A B} (f : A -> act B) (h : A -> B) l w : (forall a, In a l -> f a w = (w, Ok (h a))) -> collect l f w = (w, Ok (map h l)).
Proof.
  induction l as [|a l IH]; intros H; cbn; [reflexivity|]. unfold abind. rewrite H by now left. rewrite IH by (intros; apply H; now right). reflexivity.
Qed.
Lemma combine_map_seq {A B} (f : A -> A -> B) (d : A) (x y : list A) : List.length y = List.length x ->
  map (fun p => f (fst p) (snd p)) (combine x y) = map (fun b => f (nth b x d) (nth b y d)) (seq 0 (List.length x)).
Proof.
  revert y. induction x as [|a x IH]; intros [|b y] L; try discriminate; [reflexivity|]. cbn. f_equal. injection L as L. rewrite IH by exact L.
  rewrite <- seq_shift, map_map. reflexivity.
Qed.
Lemma join_spec l n : Forall (fun v => List.length v = n) l -> join_rows l n = Ok (map (fun b => List.concat (map (fun v => nth b v []) l)) (seq 0 n)).
Proof.
  induction 1 as [|v l H F IH]; cbn.
  - f_equal. generalize 0 as s. induction n as [|n IH]; intros s; [reflexivity|]. cbn. f_equal. apply IH.
  - rewrite IH. cbn. rewrite (proj2 (Nat.eqb_eq _ _) H). f_equal.
    rewrite (combine_map_seq (@app xf) []) by (rewrite map_length, seq_length; auto). rewrite H. apply map_ext_in. intros b I. apply in_seq in I. f_equal.
    rewrite (nth_indep _ [] (List.concat (map (fun v => nth 0 v []) l))) by (rewrite map_length, seq_length; lia).
    rewrite (map_nth (fun b => List.concat (map (fun v => nth b v []) l))). rewrite seq_nth by lia. reflexivity.
Qed.
Lemma prior_of_eq w w' c n p d : coherent w -> exists_ctx w c -> In (n, p) (x_params (ctx_at w c)) -> prior_at w c n = Some d ->
  w_ctxs w' = w_ctxs w -> w_objs w' = w_objs w -> prior_of p w' = (w', Ok d).
Proof.
  intros C H I D T1 T2. destruct (co_param w C c n p H I) as (_ & E1 & E2 & _). unfold prior_of, abind, get_obj, get_ctx. rewrite T2, E1, E2.
  rewrite T1. fold (ctx_at w c). unfold prior_at in D. now rewrite D.
Qed.
Lemma stack_eq w c constrained : coherent w -> exists_ctx w c -> names w c <> [] ->
  stack_parameters c constrained w = (w, Ok (map (fun b => List.concat (map (fun n => part_of w c constrained n b) (names w c))) (seq 0 (batch_size w c)))).
Proof.
  intros C H N. unfold stack_parameters. unfold abind at 1, get_ctx at 1. fold (ctx_at w c). unfold abind at 1.
  set (h := fun np : string * nat => map (part_of w c constrained (fst np)) (seq 0 (batch_size w c))).
  assert (R : forall n p, In (n, p) (x_params (ctx_at w c)) -> rows_of w c n = t_rows (value_at w p)).
  { intros n p I. apply param_in in I; auto. unfold rows_of, value. now rewrite I. }
  assert (M : forall A (f : list xf -> A) rows, List.length rows = batch_size w c -> map f rows = map (fun b => f (nth b rows [])) (seq 0 (batch_size w c))).
  { intros A f rows <-. clear. induction rows; [reflexivity|]. cbn. f_equal. rewrite IHrows, <- seq_shift, map_map. reflexivity. }
  rewrite (collect_pure _ h).
  2:{ intros [n p] I. cbn [fst snd]. unfold abind at 1. rewrite param_value_eq. destruct (batch_fits w c n p C H I) as (d & D & _ & L & _).
      unfold h, part_of. cbn [fst]. rewrite (R n p I), D. destruct constrained.
      - unfold ret. do 2 f_equal. rewrite <- (M _ (fun r => r)) by exact L. now rewrite map_id.
      - unfold abind. rewrite (prior_of_eq w w c n p d) by auto. unfold ret. do 2 f_equal. rewrite <- (M _ (d_inv d)) by exact L. reflexivity. }
  unfold names in N |- *. generalize dependent (x_params (ctx_at w c)). intros ps N R.
  assert (L : forall np, List.length (h np) = batch_size w c) by (intros; unfold h; now rewrite map_length, seq_length).
  transitivity (lift (join_rows (map h ps) (batch_size w c)) w); [destruct ps as [|np l]; [now contradiction N|cbn; now rewrite L]|].
  unfold lift. f_equal. rewrite join_spec.
  - f_equal. apply map_ext_in. intros b I. apply in_seq in I. f_equal. rewrite !map_map. apply map_ext. intros [n p].
    unfold h. cbn [fst]. rewrite (nth_indep _ [] (part_of w c constrained n 0)) by (rewrite map_length, seq_length; lia).
    rewrite (map_nth (part_of w c constrained n)). now rewrite seq_nth by lia.
  - apply Forall_forall. intros v I. apply in_map_iff in I. destruct I as (q & <- & _). unfold h. now rewrite map_length, seq_length.
Qed.

(** * Unstacking *)
Definition piece : Type := (string * nat * list (list xf))%type.
Definition piece_id (a : piece) : nat := snd (fst a).
Fixpoint slices (l : odict nat) (sz : string -> nat) (x : list (list xf)) (i : nat) : list piece :=
  match l with [] => [] | (n, p) :: r => (n, p, columns i (sz n) x) :: slices r sz x (i + sz n) end.
Lemma slices_ids l sz x i : map piece_id (slices l sz x i) = map snd l.
Proof. revert i. induction l as [|[n p] l IH]; intros i; cbn; [reflexivity|]. now rewrite IH. Qed.
Lemma slices_names l sz x i : map (fun a : piece => fst a) (slices l sz x i) = l.
Proof. revert i. induction l as [|[n p] l IH]; intros i; cbn; [reflexivity|]. now rewrite IH. Qed.
Lemma apply_slices l shapes sz x i f w : (forall n p, In (n, p) l -> exists s, od_get n shapes = Some s /\ prod_list s = sz n) ->
  apply_to_params l shapes x i f w = for_each (slices l sz x i) (fun a => f (piece_id a) (snd a)) w.
Proof.
  revert i w. induction l as [|[n p] l IH]; intros i w H; cbn; [reflexivity|]. destruct (H n p) as (s & E1 & E2); [now left|]. rewrite E1, E2.
  unfold abind. cbn. destruct (f p (columns i (sz n) x) w) as [w' [a|e]]; [|reflexivity]. apply IH. intros m q I. apply (H m q). now right.
Qed.
Definition unstack_goal (c : nat) (constrained : bool) (w : world) (a : piece) : res (list (list xf)) :=
  match prior_at w c (fst (fst a)) with
  | None => Raise AttributeError
  | Some d => if constrained then if forallb (d_support d) (snd a) then Ok (snd a) else Raise ValueError else Ok (map (d_fwd d) (snd a))
  end.
Lemma shapes_sizes w c (constrained : bool) n p : coherent w -> exists_ctx w c -> In (n, p) (x_params (ctx_at w c)) ->
  exists s, od_get n (if constrained then x_shapes (ctx_at w c) else x_ushapes (ctx_at w c)) = Some s /\ prod_list s = size_of w c constrained n.
Proof.
  intros C H I. destruct (co_param w C c n p H I) as (_ & _ & _ & d & b & D & _ & S & U & _). unfold size_of. rewrite D. destruct constrained; eauto.
Qed.
Lemma total_eq w c (constrained : bool) : coherent w -> exists_ctx w c ->
  total_length (if constrained then x_shapes (ctx_at w c) else x_ushapes (ctx_at w c)) = total_size w c constrained.
Proof.
  intros C H. unfold total_length, total_size. change (fold_right Nat.add 0 ?l) with (list_sum l). f_equal.
  set (tab := if constrained then x_shapes (ctx_at w c) else x_ushapes (ctx_at w c)).
  assert (K : map fst tab = names w c) by (destruct (co_keys w C c H) as (_ & K1 & K2); unfold tab; now destruct constrained).
  assert (N : NoDup (map fst tab)) by (rewrite K; apply (co_keys w C c H)).
  assert (G : forall n s, In (n, s) tab -> prod_list s = size_of w c constrained n).
  { intros n s I. assert (In n (names w c)) as J by (rewrite <- K; now apply (in_map fst) in I). apply names_params in J. destruct J as [p J].
    destruct (shapes_sizes w c constrained n p C H J) as (s' & E1 & E2). fold tab in E1. rewrite (od_in_get n tab s N I) in E1. congruence. }
  rewrite <- K. unfold od_values. rewrite !map_map. apply map_ext_in. intros [n s] I. now apply G.
Qed.
Lemma unstack_eq w c k x (constrained : bool) : coherent w -> exists_ctx w c -> unstack_parameters c k x constrained w =
  if total_size w c constrained =? k
  then for_each (slices (x_params (ctx_at w c)) (size_of w c constrained) x 0) (fun a => update_values (piece_id a) (snd a) constrained) w
  else (w, Raise AssertionError).
Proof.
  intros C H. unfold unstack_parameters. unfold abind, get_ctx. fold (ctx_at w c). rewrite total_eq by assumption. destruct (_ =? k); [|reflexivity].
  apply (apply_slices (x_params (ctx_at w c)) _ (size_of w c constrained) x 0 (fun p rows => update_values p rows constrained)).
  intros n p I. now apply (shapes_sizes w c constrained n p).
Qed.
Lemma unstack_loop w c x (constrained : bool) : coherent w -> exists_ctx w c ->
  let l := slices (x_params (ctx_at w c)) (size_of w c constrained) x 0 in
  let m := for_each l (fun a => update_values (piece_id a) (snd a) constrained) w in
  exists l1 l2, l = l1 ++ l2 /\ after piece_id (unstack_goal c constrained w) w l1 (fst m) /\
  match l2 with [] => snd m = Ok tt | a :: _ => exists e, g' piece_id (unstack_goal c constrained w) w a = Raise e /\ snd m = Raise e end.
Proof.
  intros C H l m. unfold m.
  assert (J : forall a, In a l -> In (fst a) (x_params (ctx_at w c))).
  { intros a I. apply (in_map (fun a : piece => fst a)) in I. unfold l in I. now rewrite slices_names in I. }
  apply (loop_effect piece_id _ (unstack_goal c constrained w) l w C).
  - intros [[n p] rows] I. apply J in I. now apply (co_param w C c n p).
  - unfold l. rewrite slices_ids. now apply params_nodup.
  - intros [[n p] rows] w' I (A1 & A2 & A3 & A4). apply J in I. cbn [fst snd piece_id] in *. destruct (co_param w C c n p H I) as (_ & _ & _ & d & b & D & _).
    unfold update_values, unstack_goal. unfold abind. cbn [fst snd]. rewrite (prior_of_eq w w' c n p d), D by auto. destruct constrained; [|reflexivity].
    destruct forallb; reflexivity.
Qed.

(** The pieces of a matrix in which the parts stand side by side. *)
Lemma part_between (part : string -> nat -> list xf) (sz : string -> nat) pre n suf b :
  (forall m, List.length (part m b) = sz m) ->
  firstn (sz n) (skipn (list_sum (map sz pre)) (List.concat (map (fun m => part m b) (pre ++ n :: suf)))) = part n b.
Proof.
  intros L. rewrite map_app, concat_app. cbn [map List.concat].
  assert (E : List.length (List.concat (map (fun m => part m b) pre)) = list_sum (map sz pre)) by (induction pre; cbn; [reflexivity|rewrite app_length, L; auto]).
  rewrite skipn_app, skipn_all2 by lia. rewrite E, Nat.sub_diag. cbn [skipn app]. rewrite firstn_app, L, Nat.sub_diag, firstn_all2 by now rewrite L.
  cbn. apply app_nil_r.
Qed.
Lemma slices_laid_out part sz x : forall suf pre, (forall m b, b < List.length x -> List.length (part m b) = sz m) ->
  laid_out (pre ++ map fst suf) part x ->
  slices suf sz x (list_sum (map sz pre)) = map (fun np : string * nat => (fst np, snd np, map (part (fst np)) (seq 0 (List.length x)))) suf.
Proof.
  induction suf as [|[n p] suf IH]; intros pre L O; cbn [slices map]; [reflexivity|]. cbn [fst snd]. f_equal.
  - f_equal. unfold columns. rewrite <- (map_id x) at 1.
    assert (M : forall (rows : list (list xf)) s, map (fun r => firstn (sz n) (skipn s r)) rows = map (fun b => firstn (sz n) (skipn s (nth b rows []))) (seq 0 (List.length rows))).
    { intros rows s. induction rows; [reflexivity|]. cbn. f_equal. rewrite IHrows, <- seq_shift, map_map. reflexivity. }
    rewrite map_id, M. apply map_ext_in. intros b I. apply in_seq in I. rewrite O by lia. cbn [map fst]. apply part_between. intros m. apply L. lia.
  - replace (list_sum (map sz pre) + sz n) with (list_sum (map sz (pre ++ [n]))).
    2:{ rewrite map_app, list_sum_app. cbn. lia. }
    apply IH; [exact L|]. rewrite <- app_assoc. exact O.
Qed.
Lemma slices_all part sz x w c : (forall m b, b < List.length x -> List.length (part m b) = sz m) -> laid_out (names w c) part x ->
  slices (x_params (ctx_at w c)) sz x 0 = map (fun np : string * nat => (fst np, snd np, map (part (fst np)) (seq 0 (List.length x))) : piece) (x_params (ctx_at w c)).
Proof. intros L O. exact (slices_laid_out part sz x (x_params (ctx_at w c)) [] L O). Qed.

(** * C40 *)
(** Stacking puts the samples of all parameters side by side, in the order of registration; nothing changes. *)
Theorem C40_stack : forall sample w c (constrained : bool), reached sample w -> exists_ctx w c -> names w c <> [] ->
  exists x, stack_parameters c constrained w = (w, Ok x) /\ List.length x = batch_size w c /\ laid_out (names w c) (part_of w c constrained) x.
Proof.
  intros sample w c constrained R H N. apply reached_coherent in R. eexists. split; [now apply stack_eq|].
  split; [now rewrite map_length, seq_length|]. intros b L. rewrite map_length, seq_length in L.
  rewrite (nth_indep _ [] (List.concat (map (fun n => part_of w c constrained n 0) (names w c)))) by now rewrite map_length, seq_length.
  rewrite (map_nth (fun b => List.concat (map (fun n => part_of w c constrained n b) (names w c)))). now rewrite seq_nth.
Qed.
Print Assumptions C40_stack.

Lemma goal_ok w c n p (constrained : bool) (part : string -> nat -> list xf) d : coherent w -> exists_ctx w c -> In (n, p) (x_params (ctx_at w c)) -> prior_at w c n = Some d ->
  (forall b, b < batch_size w c -> if constrained then d_support d (part n b) = true /\ List.length (part n b) = prod_list (d_event d)
                                   else List.length (d_fwd d (part n b)) = prod_list (d_event d)) ->
  g' piece_id (unstack_goal c constrained w) w (n, p, map (part n) (seq 0 (batch_size w c))) =
  Ok (map (fun b => if constrained then part n b else d_fwd d (part n b)) (seq 0 (batch_size w c))).
Proof.
  intros C H I D S. destruct (batch_fits w c n p C H I) as (d' & D' & E1 & E2 & E3). assert (d' = d) by congruence. subst d'.
  unfold g', unstack_goal, piece_id. cbn [fst snd]. rewrite D. destruct constrained.
  - assert (F : forallb (d_support d) (map (part n) (seq 0 (batch_size w c))) = true).
    { apply forallb_forall. intros r J. apply in_map_iff in J. destruct J as (b & <- & J). apply in_seq in J. apply S. lia. }
    rewrite F, E1, fits_check; [reflexivity|rewrite map_length, seq_length; auto|].
    apply Forall_forall. intros r J. apply in_map_iff in J. destruct J as (b & <- & J). apply in_seq in J. apply S. lia.
  - rewrite E1, map_map, fits_check; [reflexivity|rewrite map_length, seq_length; auto|].
    apply Forall_forall. intros r J. apply in_map_iff in J. destruct J as (b & <- & J). apply in_seq in J. apply S. lia.
Qed.
Lemma map_seq_nth {A} (f : nat -> A) n b : b < n -> nth_error (map f (seq 0 n)) b = Some (f b).
Proof. intros L. rewrite nth_error_map, (nth_error_nth' _ 0) by now rewrite seq_length. now rewrite seq_nth. Qed.

(** Unstacking a matrix in which parts of the right sizes stand side by side makes each part the value of its
    parameter (mapped to the support if the matrix is unconstrained); nothing else changes. *)
Theorem C40_unstack : forall sample w c (constrained : bool) x part, reached sample w -> exists_ctx w c ->
  List.length x = batch_size w c -> laid_out (names w c) part x ->
  (forall n b, b < List.length x -> List.length (part n b) = size_of w c constrained n) ->
  (forall n d b, prior_at w c n = Some d -> b < List.length x ->
     if constrained then d_support d (part n b) = true else List.length (d_fwd d (part n b)) = prod_list (d_event d)) ->
  exists w', perform sample (OUnstack c (total_size w c constrained) x constrained) w = (w', Ok None) /\ same_tables w w' /\
    (forall n d, In n (names w c) -> prior_at w c n = Some d -> List.length (rows_of w' c n) = batch_size w c /\
       forall b, b < batch_size w c -> entry w' c n b = Some (if constrained then part n b else d_fwd d (part n b))) /\
    (forall c' n, exists_ctx w c' -> c' <> c -> value w' c' n = value w c' n).
Proof.
  intros sample w c constrained x part R H L O Z S. pose proof (reached_coherent _ _ R) as C.
  pose proof (unstack_loop w c x constrained C H) as U. cbv zeta in U. rewrite (slices_all part) in U by assumption.
  destruct U as (l1 & l2 & E & F & G).
  set (l := map _ (x_params (ctx_at w c))) in *. set (m := for_each l (fun a : piece => update_values (piece_id a) (snd a) constrained) w) in *. set (w' := fst m) in *.
  assert (Q : forall n p d, In (n, p) (x_params (ctx_at w c)) -> prior_at w c n = Some d ->
    g' piece_id (unstack_goal c constrained w) w (n, p, map (part n) (seq 0 (List.length x))) = Ok (map (fun b => if constrained then part n b else d_fwd d (part n b)) (seq 0 (batch_size w c)))).
  { intros n p d I D. rewrite L. apply (goal_ok w c n p constrained part d); auto. intros b B. rewrite <- L in B. specialize (S n d b D B). specialize (Z n b B).
    unfold size_of in Z. rewrite D in Z. destruct constrained; auto. }
  assert (J : forall a, In a l -> exists n p, In (n, p) (x_params (ctx_at w c)) /\ a = (n, p, map (part n) (seq 0 (List.length x)))).
  { intros a I. apply in_map_iff in I. destruct I as ([n p] & <- & I). eauto. }
  destruct l2 as [|a l2].
  2:{ destruct G as (e & G & _). destruct (J a) as (n & p & I & ->); [rewrite E; apply in_or_app; right; now left|].
      destruct (batch_fits w c n p C H I) as (d & D & _). rewrite (Q n p d I D) in G. discriminate. }
  rewrite app_nil_r in E. subst l1. exists w'. cbn [perform]. unfold abind. rewrite unstack_eq by assumption. rewrite Nat.eqb_refl.
  rewrite (slices_all part) by assumption. 
  change (snd m = Ok tt) in G. change (for_each _ _ w) with m. rewrite (surjective_pairing m). rewrite G. split; [reflexivity|]. destruct F as (F1 & F2 & F3 & F4). split; [exact F2|]. split.
  - intros n d I D. apply names_params in I. destruct I as [p I]. destruct (F3 (n, p, map (part n) (seq 0 (List.length x)))) as (rows & G1 & G2).
    { unfold l. apply in_map_iff. exists (n, p). auto. }
    rewrite (Q n p d I D) in G1. injection G1 as <-. cbn [piece_id fst snd] in G2. destruct (by_name w w' c n p C F2 H I) as [V' V].
    unfold entry, rows_of. rewrite V', G2. cbn [set_rows t_rows]. split; [now rewrite map_length, seq_length|]. intros b B. now rewrite map_seq_nth.
  - intros c' n H' N. apply (after_other piece_id (unstack_goal c constrained w) l w w' c); auto; [|now split].
    intros a I. destruct (J a I) as (n' & p & I' & ->). cbn. now apply (in_map snd) in I'.
Qed.
Print Assumptions C40_unstack.

(** Parts of any matrix of the right width. *)
Fixpoint part_at (ns : list string) (sz : string -> nat) (row : list xf) (n : string) : list xf :=
  match ns with
  | [] => repeat NaN (sz n)
  | m :: r => if String.eqb n m then firstn (sz m) row else part_at r sz (skipn (sz m) row) n
  end.
Lemma part_at_len ns sz row n : List.length row = list_sum (map sz ns) -> List.length (part_at ns sz row n) = sz n.
Proof.
  revert row. induction ns as [|m ns IH]; cbn; intros row L; [apply repeat_length|]. destruct (String.eqb_spec n m).
  - subst. rewrite firstn_length. lia.
  - apply IH. rewrite skipn_length. unfold list_sum; lia.
Qed.
Lemma part_at_concat ns sz row : NoDup ns -> List.length row = list_sum (map sz ns) -> List.concat (map (part_at ns sz row) ns) = row.
Proof.
  revert row. induction ns as [|m ns IH]; cbn; intros row N L; [now destruct row|]. inversion N; subst. rewrite String.eqb_refl.
  transitivity (firstn (sz m) row ++ skipn (sz m) row); [|apply firstn_skipn]. f_equal.
  transitivity (List.concat (map (part_at ns sz (skipn (sz m) row)) ns)); [|apply IH; [assumption|rewrite skipn_length; unfold list_sum; lia]].
  f_equal. apply map_ext_in. intros n I. cbn. destruct (String.eqb_spec n m); [subst; contradiction|reflexivity].
Qed.
(** Every matrix of the right width is laid out in parts. *)
Lemma laid_out_exists sample w c (constrained : bool) x : reached sample w -> exists_ctx w c -> Forall (fun r => List.length r = total_size w c constrained) x ->
  exists part, laid_out (names w c) part x /\ forall n b, b < List.length x -> List.length (part n b) = size_of w c constrained n.
Proof.
  intros R H F. apply reached_coherent in R. exists (fun n b => part_at (names w c) (size_of w c constrained) (nth b x []) n).
  rewrite Forall_forall in F. split.
  - intros b L. symmetry. apply part_at_concat; [apply (co_keys w R c H)|]. apply F. now apply nth_In.
  - intros n b L. apply part_at_len. apply F. now apply nth_In.
Qed.
Lemma nth_ext_rows (x y : list (list xf)) : List.length x = List.length y -> (forall b, b < List.length x -> nth b x [] = nth b y []) -> x = y.
Proof. intros. now apply (nth_ext x y [] []). Qed.

(** Unstacking a matrix and stacking again gives the matrix back. *)
Theorem C40_unstack_stack : forall sample w c (constrained : bool) x part, reached sample w -> exists_ctx w c -> names w c <> [] ->
  List.length x = batch_size w c -> laid_out (names w c) part x ->
  (forall n b, b < List.length x -> List.length (part n b) = size_of w c constrained n) ->
  (forall n d b, prior_at w c n = Some d -> b < List.length x ->
     if constrained then d_support d (part n b) = true else bijection_ok d /\ Forall finite (part n b)) ->
  exists w', perform sample (OUnstack c (total_size w c constrained) x constrained) w = (w', Ok None) /\ stack_parameters c constrained w' = (w', Ok x).
Proof.
  intros sample w c constrained x part R H N L O Z S.
  assert (S' : forall n d b, prior_at w c n = Some d -> b < List.length x ->
     if constrained then d_support d (part n b) = true else List.length (d_fwd d (part n b)) = prod_list (d_event d)).
  { intros n d b D B. specialize (S n d b D B). specialize (Z n b B). unfold size_of in Z. rewrite D in Z. destruct constrained; [exact S|]. destruct S as [[_ S] F]. now apply S. }
  destruct (C40_unstack sample w c constrained x part R H L O Z S') as (w' & E & T & V & _). exists w'. split; [exact E|].
  destruct (same_tables_sizes w w' c T) as (B & X & Ns & Pr).
  assert (R' : reached sample w').
  { pose proof (reached_step sample w (OUnstack c (total_size w c constrained) x constrained) R I) as K. now rewrite E in K. }
  destruct (C40_stack sample w' c constrained R' (X H)) as (y & E2 & Ly & Oy); [now rewrite Ns|]. rewrite E2. do 2 f_equal.
  apply nth_ext_rows; [congruence|]. intros b Hb. rewrite Oy by exact Hb. rewrite O by congruence. rewrite Ns. f_equal. apply map_ext_in. intros n I.
  assert (D : exists d, prior_at w c n = Some d).
  { apply names_params in I. destruct I as [p I]. destruct (co_param w (reached_coherent _ _ R) c n p H I) as (_ & _ & _ & d & _ & D & _). eauto. }
  destruct D as [d D]. destruct (V n d I D) as [V1 V2]. assert (Hb' : b < batch_size w c) by (rewrite Ly, B in Hb; exact Hb). specialize (V2 b Hb').
  unfold part_of. rewrite Pr, D. unfold entry, rows_of in *. destruct (value w' c n) as [t|]; [|discriminate]. rewrite (nth_error_nth _ _ _ V2).
  destruct constrained; [reflexivity|]. specialize (S n d b D). rewrite L in S. specialize (S Hb'). destruct S as [[_ S] F]. specialize (Z n b). rewrite L in Z. specialize (Z Hb').
  unfold size_of in Z. rewrite D in Z. now apply S.
Qed.
Print Assumptions C40_unstack_stack.

Lemma rep_same {A} i (l : list A) d : replace_nth i (nth i l d) l = l.
Proof. revert i. induction l as [|a l IH]; destruct i; cbn; auto. now rewrite IH. Qed.
Lemma upd_same w p : upd w p (t_rows (value_at w p)) = w.
Proof.
  unfold upd. replace (Tensor (t_batch (value_at w p)) (t_event (value_at w p)) (t_rows (value_at w p))) with (value_at w p) by now destruct (value_at w p).
  unfold value_at. rewrite rep_same. now destruct w.
Qed.
Lemma for_each_still {A} (l : list A) (f : A -> act unit) (ok : A -> bool) e w :
  (forall a, In a l -> f a w = (w, if ok a then Ok tt else Raise e)) -> for_each l f w = (w, if forallb ok l then Ok tt else Raise e).
Proof.
  induction l as [|a l IH]; intros H; cbn; [reflexivity|]. unfold abind. rewrite H by now left. destruct (ok a); cbn; [|reflexivity]. apply IH. intros. apply H. now right.
Qed.

(** Stacking the parameters and unstacking the matrix again leaves everything exactly as it was; it is accepted if all
    values lie in the supports (always, if unconstrained with values in the supports). *)
Theorem C40_stack_unstack : forall sample w c (constrained : bool) x, reached sample w -> exists_ctx w c -> names w c <> [] ->
  stack_parameters c constrained w = (w, Ok x) ->
  (constrained = false -> forall n d, prior_at w c n = Some d -> bijection_ok d /\ Forall (fun r => d_support d r = true) (rows_of w c n)) ->
  perform sample (OUnstack c (total_size w c constrained) x constrained) w =
    (w, if negb constrained || forallb (fun n => match prior_at w c n with Some d => forallb (d_support d) (rows_of w c n) | None => true end) (names w c)
        then Ok None else Raise ValueError).
Proof.
  intros sample w c constrained x R H N E B. pose proof (reached_coherent _ _ R) as C.
  destruct (C40_stack sample w c constrained R H N) as (y & E2 & Ly & Oy). rewrite E2 in E. injection E as ->.
  assert (Sz : forall n p, In (n, p) (x_params (ctx_at w c)) -> rows_of w c n = t_rows (value_at w p)).
  { intros n p I. apply param_in in I; auto. unfold rows_of, value. now rewrite I. }
  (* outside the names the parts are irrelevant: pad them *)
  set (part := fun n b => if existsb (String.eqb n) (names w c) then part_of w c constrained n b else repeat NaN (size_of w c constrained n)).
  assert (In_ex : forall n, In n (names w c) -> existsb (String.eqb n) (names w c) = true).
  { intros n I. apply existsb_exists. exists n. split; [exact I|apply String.eqb_refl]. }
  assert (O : laid_out (names w c) part x).
  { intros b L. rewrite Oy by exact L. f_equal. apply map_ext_in. intros n I. unfold part. now rewrite In_ex. }
  assert (Z : forall n b, b < List.length x -> List.length (part n b) = size_of w c constrained n).
  { intros n b L. unfold part. destruct (existsb (String.eqb n) (names w c)) eqn:X; [|apply repeat_length].
    apply existsb_exists in X. destruct X as (m & I & Em). apply String.eqb_eq in Em. subst m. apply names_params in I. destruct I as [p I].
    destruct (batch_fits w c n p C H I) as (d & D & E1 & Lr & Fr). unfold part_of, size_of. rewrite D. rewrite (Sz n p I).
    assert (K : In (nth b (t_rows (value_at w p)) []) (t_rows (value_at w p))) by (apply nth_In; lia).
    rewrite Forall_forall in Fr. destruct constrained; [now apply Fr|]. destruct (B eq_refl n d D) as [[B1 _] B2]. rewrite (Sz n p I), Forall_forall in B2. apply B1; auto. }
  cbn [perform]. unfold abind. rewrite unstack_eq by assumption. rewrite Nat.eqb_refl.
  rewrite (slices_all part) by assumption.
  rewrite (for_each_still _ _ (fun a : piece => negb constrained || match prior_at w c (fst (fst a)) with Some d => forallb (d_support d) (rows_of w c (fst (fst a))) | None => true end) ValueError).
  - match goal with |- context [if ?ok then Ok tt else _] => replace ok with
      (negb constrained || forallb (fun n => match prior_at w c n with Some d => forallb (d_support d) (rows_of w c n) | None => true end) (names w c)) end.
    + destruct (negb constrained || _); reflexivity.
    + unfold names. clear. generalize (x_params (ctx_at w c)) as l. intros l. destruct constrained; cbn [negb orb].
      * induction l as [|[n p] l IH]; cbn; [reflexivity|]. now rewrite IH.
      * induction l as [|[n p] l IH]; cbn; [reflexivity|]. exact IH.
  - intros a I. apply in_map_iff in I. destruct I as ([n p] & <- & I). cbn [fst snd piece_id].
    destruct (batch_fits w c n p C H I) as (d & D & E1 & Lr & Fr).
    assert (Im : In n (names w c)) by (unfold names; now apply (in_map fst) in I).
    unfold update_values, abind. rewrite (prior_of_eq w w c n p d) by auto. rewrite D.
    assert (Rw : map (part n) (seq 0 (List.length x)) = map (fun b => part_of w c constrained n b) (seq 0 (batch_size w c))).
    { rewrite Ly. apply map_ext. intros b. unfold part. now rewrite In_ex. }
    rewrite Rw.
    assert (M : forall A (f : list xf -> A), map (fun b => f (nth b (t_rows (value_at w p)) [])) (seq 0 (batch_size w c)) = map f (t_rows (value_at w p))).
    { intros A f. rewrite <- Lr. clear. induction (t_rows (value_at w p)); [reflexivity|]. cbn. f_equal. rewrite <- IHl, <- seq_shift, map_map. reflexivity. }
    assert (Cp : copy_rows p (t_rows (value_at w p)) w = (w, Ok tt)).
    { rewrite copy_rows_eq, fits_check; [|reflexivity|now rewrite E1]. now rewrite upd_same. }
    unfold part_of. rewrite D, (Sz n p I). destruct constrained; cbn [negb orb].
    + rewrite (M _ (fun r => r)), map_id. destruct forallb; [exact Cp|reflexivity].
    + rewrite (M _ (d_inv d)), map_map. destruct (B eq_refl n d D) as [[B1 _] B2]. rewrite (Sz n p I) in B2.
      rewrite (map_ext_in _ (fun r => r)); [now rewrite map_id|]. intros r J. rewrite Forall_forall in B2, Fr. apply B1; auto.
Qed.
Print Assumptions C40_stack_unstack.

(** * C41 *)
(** Nothing has changed if the number of columns is wrong.  Otherwise the parameters registered before the one refused
    have been updated, this one and those after it have not. *)
Theorem C41_partial : forall sample w c k x (constrained : bool), reached sample w -> exists_ctx w c ->
  exists w' r, perform sample (OUnstack c k x constrained) w = (w', r) /\
    (k <> total_size w c constrained -> w' = w /\ r = Raise AssertionError) /\
    (k = total_size w c constrained -> same_tables w w' /\ (forall c' n, exists_ctx w c' -> c' <> c -> value w' c' n = value w c' n) /\
      exists done left, names w c = done ++ left /\ (left = [] <-> r = Ok None) /\ (forall n, In n left -> value w' c n = value w c n)).
Proof.
  intros sample w c k x constrained R H. pose proof (reached_coherent _ _ R) as C. pose proof (unstack_loop w c x constrained C H) as U. cbv zeta in U.
  cbn [perform]. unfold abind. rewrite unstack_eq by assumption. destruct (Nat.eqb_spec (total_size w c constrained) k) as [E|E].
  2:{ exists w, (Raise AssertionError). repeat split; auto; congruence. }
  destruct U as (l1 & l2 & El & F & G). set (l := slices _ _ _ _) in *. set (m := for_each l _ w) in *.
  exists (fst m), (match snd m with Ok _ => Ok None | Raise e => Raise e end). rewrite (surjective_pairing m) at 1.
  split; [destruct (snd m); reflexivity|]. split; [congruence|]. intros _. destruct F as (F1 & F2 & F3 & F4). split; [exact F2|].
  assert (Nm : map (fun a : piece => fst a) (l1 ++ l2) = x_params (ctx_at w c)) by (rewrite <- El; apply slices_names).
  assert (J : forall a, In a (l1 ++ l2) -> In (fst a) (x_params (ctx_at w c))) by (intros a I; rewrite <- Nm; now apply (in_map (fun a : piece => fst a)) in I).
  split.
  - intros c' n H' N. apply (after_other piece_id (unstack_goal c constrained w) l1 w (fst m) c); auto; [|now split].
    intros a I. apply (in_map snd) with (x := fst a). apply J. apply in_or_app. now left.
  - exists (map (fun a : piece => fst (fst a)) l1), (map (fun a : piece => fst (fst a)) l2). split; [|split].
    + rewrite <- map_app. unfold names. rewrite <- Nm, map_map. reflexivity.
    + destruct l2 as [|a l2].
      * rewrite G. split; auto.
      * destruct G as (e & _ & G). rewrite G. split; discriminate.
    + intros n I. apply in_map_iff in I. destruct I as ([[n' p] rows] & E1 & I). cbn in E1. subst n'. pose proof (J (n, p, rows) (in_or_app _ _ _ (or_intror I))) as I'. cbn in I'.
      destruct (by_name w (fst m) c n p C F2 H I') as [V' V]. rewrite V', V. f_equal. apply F4; [now apply (co_param w C c n p H I')|].
      intros K. pose proof (params_nodup w c C H) as ND. rewrite <- Nm, map_map, map_app in ND. apply (in_map (fun a : piece => snd (fst a))) in I. cbn in I.
      exact (NoDup_app_disjoint_snd _ _ ND p K I).
Qed.
Print Assumptions C41_partial.

(** A matrix of unconstrained finite values of the right shape is never refused. *)
Theorem C41_unconstrained_accepted : forall sample w c x, reached sample w -> exists_ctx w c ->
  List.length x = batch_size w c -> Forall (fun r => List.length r = total_size w c false /\ Forall finite r) x ->
  (forall n d, prior_at w c n = Some d -> bijection_ok d) ->
  snd (perform sample (OUnstack c (total_size w c false) x false) w) = Ok None.
Proof.
  intros sample w c x R H L F B. pose proof (reached_coherent _ _ R) as C. rewrite Forall_forall in F.
  set (part := fun n b => part_at (names w c) (size_of w c false) (nth b x []) n).
  assert (O : laid_out (names w c) part x).
  { intros b Lb. symmetry. apply part_at_concat; [apply (co_keys w C c H)|]. apply F. now apply nth_In. }
  assert (Z : forall n b, b < List.length x -> List.length (part n b) = size_of w c false n) by (intros n b Lb; apply part_at_len; apply F; now apply nth_In).
  (* the parts of names not registered play no role *)
  set (part2 := fun n b => if existsb (String.eqb n) (names w c) then part n b else repeat (Fin 0) (size_of w c false n)).
  assert (In_ex : forall n, In n (names w c) -> existsb (String.eqb n) (names w c) = true).
  { intros n I. apply existsb_exists. exists n. split; [exact I|apply String.eqb_refl]. }
  destruct (C40_unstack sample w c false x part2 R H L) as (w' & E & _).
  - intros b Lb. rewrite O by exact Lb. f_equal. apply map_ext_in. intros n I. unfold part2. now rewrite In_ex.
  - intros n b Lb. unfold part2. destruct existsb; [now apply Z|apply repeat_length].
  - intros n d b D Lb. apply (B n d D).
    + unfold part2. destruct existsb; [rewrite Z by exact Lb|rewrite repeat_length]; unfold size_of; now rewrite D.
    + unfold part2. destruct (existsb (String.eqb n) (names w c)) eqn:X.
      * apply existsb_exists in X. destruct X as (m & I & Em). apply String.eqb_eq in Em. subst m. apply Forall_forall. intros v J.
        destruct (F (nth b x [])) as [_ Fin]; [now apply nth_In|]. rewrite Forall_forall in Fin. apply Fin. rewrite O by exact Lb. apply in_concat. exists (part n b).
        split; [|exact J]. now apply in_map with (f := fun n => part n b).
      * apply Forall_forall. intros v J. apply repeat_spec in J. exists 0%R. exact J.
  - now rewrite E.
Qed.
Print Assumptions C41_unconstrained_accepted.

(** The claim fails: with two parameters, values in the support of the first and outside that of the second are refused
    with the first parameter already overwritten. *)
Theorem C41_refuted : forall sample w c n1 n2 ns d1 d2 x part, reached sample w -> exists_ctx w c ->
  names w c = n1 :: n2 :: ns -> prior_at w c n1 = Some d1 -> prior_at w c n2 = Some d2 ->
  List.length x = batch_size w c -> laid_out (names w c) part x -> (forall n b, b < List.length x -> List.length (part n b) = size_of w c true n) ->
  (forall b, b < List.length x -> d_support d1 (part n1 b) = true) -> (exists b, b < List.length x /\ d_support d2 (part n2 b) = false) ->
  exists w', perform sample (OUnstack c (total_size w c true) x true) w = (w', Raise ValueError) /\
    forall b, b < List.length x -> entry w' c n1 b = Some (part n1 b).
Proof.
  intros sample w c n1 n2 ns d1 d2 x part R H N D1 D2 L O Z S1 (b2 & L2 & S2). pose proof (reached_coherent _ _ R) as C.
  pose proof (unstack_loop w c x true C H) as U. cbv zeta in U. cbn [perform]. unfold abind. rewrite unstack_eq by assumption. rewrite Nat.eqb_refl.
  rewrite (slices_all part) in U by assumption. rewrite (slices_all part) by assumption.
  unfold names in N. destruct (x_params (ctx_at w c)) as [|[m1 p1] [|[m2 p2] ps]] eqn:X; try discriminate. cbn in N. injection N as -> -> _.
  assert (I1 : In (n1, p1) (x_params (ctx_at w c))) by (rewrite X; now left). assert (I2 : In (n2, p2) (x_params (ctx_at w c))) by (rewrite X; right; now left).
  assert (G1 : g' piece_id (unstack_goal c true w) w (n1, p1, map (part n1) (seq 0 (List.length x))) = Ok (map (part n1) (seq 0 (List.length x)))).
  { rewrite L. rewrite (goal_ok w c n1 p1 true part d1); auto. intros b B. rewrite <- L in B. split; [now apply S1|]. rewrite Z by exact B. unfold size_of. now rewrite D1. }
  assert (G2 : g' piece_id (unstack_goal c true w) w (n2, p2, map (part n2) (seq 0 (List.length x))) = Raise ValueError).
  { unfold g', unstack_goal. cbn [fst snd]. rewrite D2. destruct forallb eqn:Q; [|reflexivity]. rewrite forallb_forall in Q. rewrite Q in S2; [discriminate|].
    apply in_map. apply in_seq. lia. }
  destruct U as (l1 & l2 & El & F & G). cbn [map fst snd] in El |- *. set (m := for_each _ _ w) in *.
  exists (fst m). rewrite (surjective_pairing m) at 1. destruct F as (F1 & F2 & F3 & F4).
  destruct l1 as [|a1 [|a2 l1]].
  - cbn in El. destruct l2 as [|a l2]; [discriminate|]. injection El as <- _. destruct G as (e & G & _). congruence.
  - injection El as <- El. destruct l2 as [|a l2]; [discriminate|]. injection El as <- _. destruct G as (e & G & Gm). rewrite G2 in G. injection G as <-.
    change (snd m = Raise ValueError) in Gm. rewrite Gm. split; [reflexivity|]. intros b B.
    destruct (F3 (n1, p1, map (part n1) (seq 0 (List.length x)))) as (rows & Q1 & Q2); [now left|]. rewrite G1 in Q1. injection Q1 as <-.
    destruct (by_name w (fst m) c n1 p1 C F2 H I1) as [V' _]. unfold entry. rewrite V'. cbn [piece_id fst snd] in Q2. rewrite Q2. cbn [set_rows t_rows].
    now rewrite map_seq_nth.
  - injection El as <- <- El. destruct (F3 (n2, p2, map (part n2) (seq 0 (List.length x)))) as (rows & Q1 & _); [right; now left|]. congruence.
Qed.
Print Assumptions C41_refuted.

(** * The hypotheses can be met: a positive parameter and a simplex of two components *)
Definition positive_row (x : list xf) : bool := match x with [Fin r] => if Rlt_dec 0 r then true else false | _ => false end.
Definition exp_row (x : list xf) : list xf := match x with [Fin r] => [Fin (exp r)] | _ => [NaN] end.
Definition ln_row (x : list xf) : list xf := match x with [Fin r] => [Fin (ln r)] | _ => [NaN] end.
Definition positive_prior : dist := Dist "Exponential" [("rate"%string, [Fin 1])] 0 false [] [] positive_row exp_row ln_row (fun _ => Fin 0) (fun _ => Fin 0).
Definition simplex_row (x : list xf) : bool :=
  match x with [Fin a; Fin b] => if Rlt_dec 0 a then if Rlt_dec 0 b then if Req_EM_T (a + b) 1 then true else false else false else false | _ => false end.
Definition logistic_row (x : list xf) : list xf := match x with [Fin u] => [Fin (exp u / (1 + exp u)); Fin (1 / (1 + exp u))] | _ => [NaN; NaN] end.
Definition logit_row (x : list xf) : list xf := match x with [Fin a; Fin b] => [Fin (ln (a / b))] | _ => [NaN] end.
Definition pair_prior : dist := Dist "Dirichlet" [("concentration"%string, [Fin 1; Fin 1])] 0 false [2] [1] simplex_row logistic_row logit_row (fun _ => Fin 0) (fun _ => Fin 0).
Lemma positive_bijection : bijection_ok positive_prior.
Proof.
  split.
  - intros [|[r| | |] [|? ?]] L S; try discriminate. cbn in *. destruct (Rlt_dec 0 r); [|discriminate]. split; [reflexivity|]. now rewrite exp_ln.
  - intros [|u [|? ?]] L F; try discriminate. inversion F as [|? ? [r ->] _]. subst. cbn. split; [reflexivity|]. split; [|now rewrite ln_exp].
    destruct (Rlt_dec 0 (exp r)); [reflexivity|]. exfalso. apply n. apply exp_pos.
Qed.
Lemma pair_bijection : bijection_ok pair_prior.
Proof.
  split.
  - intros [|[a| | |] [|[b| | |] [|? ?]]] L S; try discriminate. cbn in *. destruct (Rlt_dec 0 a); [|discriminate]. destruct (Rlt_dec 0 b); [|discriminate].
    destruct (Req_EM_T (a + b) 1) as [E|]; [|discriminate]. split; [reflexivity|]. rewrite exp_ln by now apply Rdiv_lt_0_compat. 
    replace (1 + a / b)%R with ((a + b) / b)%R by (field; lra). rewrite E.
    replace (a / b / (1 / b))%R with a by (field; lra). now replace (1 / (1 / b))%R with b by (field; lra).
  - intros [|u [|? ?]] L F; try discriminate. inversion F as [|? ? [r ->] _]. subst. cbn. split; [reflexivity|]. pose proof (exp_pos r) as P. split.
    + destruct (Rlt_dec 0 (exp r / (1 + exp r))) as [|n]; [|exfalso; apply n; apply Rdiv_lt_0_compat; lra].
      destruct (Rlt_dec 0 (1 / (1 + exp r))) as [|n]; [|exfalso; apply n; apply Rdiv_lt_0_compat; lra].
      destruct Req_EM_T as [|n]; [reflexivity|]. exfalso. apply n. field. lra.
    + replace (exp r / (1 + exp r) / (1 / (1 + exp r)))%R with (exp r) by (field; lra). now rewrite ln_exp.
Qed.
Definition halves (r : nat) (d : dist) (n : nat) : list (list xf) := repeat (repeat (Fin (/ 2)) (prod_list (d_event d))) n.
Lemma halves_ok : sampler_ok halves.
Proof. intros r d n. unfold halves. rewrite repeat_length. split; [reflexivity|]. apply Forall_forall. intros row I. apply repeat_spec in I. subst. apply repeat_length. Qed.
Definition three_parameters : list op :=
  [ONew None; OShape 0 [2]; ORegister 0 "a" normal_prior; ORegister 0 "s" pair_prior; ORegister 0 "p" positive_prior].
Lemma three_reached : reached halves (history halves three_parameters no_world).
Proof. split; [apply halves_ok|]. exists three_parameters. split; [repeat constructor|reflexivity]. Qed.
Lemma normal_bijection : bijection_ok normal_prior.
Proof. split; cbn; auto. Qed.
Lemma three_priors n d : prior_at (history halves three_parameters no_world) 0 n = Some d ->
  bijection_ok d /\ Forall (fun r => d_support d r = true) (rows_of (history halves three_parameters no_world) 0 n).
Proof.
  unfold rows_of, value, param_id, prior_at. cbn -[Rinv]. repeat destruct (String.eqb n _); intros [=]; subst; split;
    auto using positive_bijection, pair_bijection, normal_bijection; cbn -[Rinv]; repeat constructor; cbn -[Rinv].
  1,2: destruct (Rlt_dec 0 (/ 2)) as [|n']; [|exfalso; apply n'; lra]; destruct (Req_EM_T (/ 2 + / 2) 1) as [|n']; [reflexivity|exfalso; apply n'; lra].
  all: destruct (Rlt_dec 0 (/ 2)) as [|n']; [reflexivity|exfalso; apply n'; lra].
Qed.
Example C40_C41_nonvacuous : let w := history halves three_parameters no_world in
  reached halves w /\ exists_ctx w 0 /\ names w 0 = ["a"%string; "s"%string; "p"%string] /\ batch_size w 0 = 2 /\ total_size w 0 true = 4 /\ total_size w 0 false = 3 /\
  (forall n d, prior_at w 0 n = Some d -> bijection_ok d /\ Forall (fun r => d_support d r = true) (rows_of w 0 n)) /\
  (let bad := [[Fin 7; Fin 7; Fin 7; Fin 7]; [Fin 7; Fin 7; Fin 7; Fin 7]] in
   let part := fun n (_ : nat) => repeat (Fin 7) (size_of w 0 true n) in
   laid_out (names w 0) part bad /\ (forall n b, b < List.length bad -> List.length (part n b) = size_of w 0 true n) /\
   (forall b, b < List.length bad -> d_support normal_prior (part "a"%string b) = true) /\ d_support pair_prior (part "s"%string 0) = false) /\
  (let x := [[Fin 1; Fin 2; Fin 3]; [Fin 4; Fin 5; Fin 6]] in Forall (fun r => List.length r = total_size w 0 false /\ Forall finite r) x).
Proof.
  intros w. split; [exact three_reached|]. split; [cbv; lia|]. split; [reflexivity|]. split; [reflexivity|]. split; [reflexivity|]. split; [reflexivity|].
  split; [exact three_priors|]. split.
  - intros bad part. split; [|split; [|split]].
    + intros [|[|b]] L; [reflexivity|reflexivity|cbn in L; lia].
    + intros n b _. apply repeat_length.
    + reflexivity.
    + cbn. destruct (Rlt_dec 0 7); [|reflexivity]. destruct (Req_EM_T (7 + 7) 1) as [e|]; [exfalso; lra|reflexivity].
  - intros x. unfold x, finite. repeat constructor; eauto.
Qed.
