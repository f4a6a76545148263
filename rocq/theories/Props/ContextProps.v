(** Properties C37-C39 (pyfilter/inference/context.py). *)
From Coq Require Import Reals List Bool Arith String Lia.
From Verif.Model Require Import Base Xf Prior Context.
From Verif.Spec Require Import ContextSpec.
From Verif.Proofs Require Import ContextProofs.
Import ListNotations.
Local Open Scope list_scope.
Local Open Scope nat_scope.

Lemma history_cons sample o l w : history sample (o :: l) w = history sample l (fst (perform sample o w)).
Proof. reflexivity. Qed.
Lemma set_batch_eq c s w : set_batch_shape c s w =
  match batch_of w c with
  | None => put_ctx c (Ctx (Some s) (x_priors (ctx_at w c)) (x_params (ctx_at w c)) (x_shapes (ctx_at w c)) (x_ushapes (ctx_at w c)) (x_verify (ctx_at w c)) (x_quasi (ctx_at w c))) w
  | Some b => (w, if list_eq_dec Nat.eq_dec b s then Ok tt else Raise BatchShapeAlreadySet)
  end.
Proof. unfold set_batch_shape, abind, get_ctx. fold (ctx_at w c). unfold batch_of. destruct (x_batch (ctx_at w c)); [|reflexivity]. now destruct list_eq_dec. Qed.

(** * C37 *)
Lemma shape_step sample o w c : sub w -> exists_ctx w c ->
  batch_of (fst (perform sample o w)) c = match batch_of w c with Some b => Some b | None => first_shape c [(o, snd (perform sample o w))] end.
Proof.
  intros S H.
  assert (K : forall b, batch_of w c = Some b -> batch_of (fst (perform sample o w)) c = Some b).
  { intros b E. eapply g_batch; [apply (since_perform sample w o w)|exact H|exact E]. split; [exact S|apply grows_refl]. }
  destruct (batch_of w c) as [b|] eqn:B; [now apply K|]. clear K.
  destruct (retables o) as [c'|] eqn:R; [destruct (Nat.eq_dec c' c) as [->|N]|].
  - destruct o; try discriminate R; injection R as ->; cbn [perform].
    + unfold abind. rewrite set_batch_eq, B. cbn [put_ctx]. unfold ret. cbn [fst snd first_shape]. rewrite Nat.eqb_refl.
      unfold batch_of, ctx_at. cbn. rewrite rep_nth, Nat.eqb_refl. apply Nat.ltb_lt in H. now rewrite H.
    + unfold abind. rewrite named_eq. unfold batch_of in B. rewrite B. cbn. exact B.
    + unfold abind, set_verify, get_ctx. cbn. unfold abind, batch_of, ctx_at. cbn. rewrite rep_nth, Nat.eqb_refl. apply Nat.ltb_lt in H. rewrite H. exact B.
  - destruct (is_perform sample c (ctx_at w c) o) with (w := w) as [_ E]; [congruence|now split|].
    unfold batch_of. rewrite E. unfold batch_of in B. rewrite B. destruct o; try reflexivity. cbn in R. injection R as ->. cbn.
    destruct (snd _); [|reflexivity]. destruct (Nat.eqb_spec c' c); [contradiction|reflexivity].
  - destruct (is_perform sample c (ctx_at w c) o) with (w := w) as [_ E]; [congruence|now split|].
    unfold batch_of. rewrite E. unfold batch_of in B. rewrite B. destruct o; try reflexivity. discriminate R.
Qed.
Lemma since_step sample o w : sub w -> sub (fst (perform sample o w)) /\ (forall c, exists_ctx w c -> exists_ctx (fst (perform sample o w)) c).
Proof.
  intros S. destruct (since_perform sample w o w) as [S' G]; [split; [exact S|apply grows_refl]|]. split; [exact S'|].
  intros c H. unfold exists_ctx in *. pose proof (g_ctxs _ _ G). lia.
Qed.
Lemma shape_history sample l w c : sub w -> exists_ctx w c ->
  batch_of (history sample l w) c = match batch_of w c with Some b => Some b | None => first_shape c (outcomes sample l w) end.
Proof.
  revert w. induction l as [|o l IH]; intros w S H; [cbn; now destruct (batch_of w c)|].
  rewrite history_cons. destruct (since_step sample o w S) as [S' H']. rewrite IH by auto. rewrite shape_step by auto.
  destruct (batch_of w c); [reflexivity|]. cbn [outcomes]. generalize (outcomes sample l (fst (perform sample o w))) as r. intros r.
  destruct o; cbn; try reflexivity. destruct (snd _); [|reflexivity]. now destruct (_ =? _).
Qed.

(** The batch shape of a context is the first one that was set with success; setting it to another one is refused,
    setting it to the same is accepted, neither changes anything; registering a parameter before is refused. *)
Theorem C37_batch_shape : forall sample l l' c, let w := history sample l no_world in exists_ctx w c ->
  (forall s, batch_of w c = None -> exists w', perform sample (OShape c s) w = (w', Ok None) /\ batch_of w' c = Some s) /\
  (forall b s, batch_of w c = Some b -> perform sample (OShape c s) w = (w, if list_eq_dec Nat.eq_dec b s then Ok None else Raise BatchShapeAlreadySet)) /\
  (forall n d, batch_of w c = None -> perform sample (ORegister c n d) w = (w, Raise BatchShapeNotSet)) /\
  batch_of (history sample l' w) c = match batch_of w c with Some b => Some b | None => first_shape c (outcomes sample l' w) end.
Proof.
  intros sample l l' c w H. split; [|split; [|split]].
  - intros s B. cbn [perform]. unfold abind. rewrite set_batch_eq, B. eexists. split; [reflexivity|].
    unfold batch_of, ctx_at. cbn. rewrite rep_nth, Nat.eqb_refl. apply Nat.ltb_lt in H. now rewrite H.
  - intros b s B. cbn [perform]. unfold abind. rewrite set_batch_eq, B. now destruct list_eq_dec.
  - intros n d B. cbn [perform]. unfold abind. rewrite named_eq. unfold batch_of in B. now rewrite B.
  - apply shape_history; [apply sub_reach|exact H].
Qed.
Print Assumptions C37_batch_shape.

(** * C38 *)
Lemma names_step sample o w c : tidy w -> unbatched o -> exists_ctx w c ->
  names (fst (perform sample o w)) c = first_registrations c (names w c) [(o, snd (perform sample o w))].
Proof.
  intros T U H.
  assert (X : retables o <> Some c -> names (fst (perform sample o w)) c = names w c).
  { intros R. destruct (is_perform sample c (ctx_at w c) o R w) as [_ E]; [now split|]. unfold names. now rewrite E. }
  destruct (retables o) as [c'|] eqn:R; [destruct (Nat.eq_dec c' c) as [->|N]|].
  - destruct o; try discriminate R; injection R as ->; cbn [perform].
    + unfold abind. rewrite set_batch_eq. destruct (batch_of w c); cbn; [now destruct list_eq_dec|].
      unfold names, ctx_at. cbn. rewrite rep_nth, Nat.eqb_refl. apply Nat.ltb_lt in H. now rewrite H.
    + unfold abind. destruct (names_named sample c n d w (proj1 T) U) as [_ E]. destruct (named_parameter sample c n d w) as [w' [p|e]]; cbn in *; rewrite E; [|reflexivity].
      rewrite Nat.eqb_refl. cbn. now destruct existsb.
    + unfold abind, set_verify, get_ctx. cbn. unfold abind, names, ctx_at. cbn. rewrite rep_nth, Nat.eqb_refl. apply Nat.ltb_lt in H. now rewrite H.
  - rewrite X by congruence. destruct o; try reflexivity. cbn in R. injection R as ->. cbn.
    destruct (snd _); [|reflexivity]. destruct (Nat.eqb_spec c' c); [contradiction|reflexivity].
  - rewrite X by congruence. destruct o; try reflexivity. discriminate R.
Qed.
Lemma names_history sample l w c : sub w -> tidy w -> Forall unbatched l -> exists_ctx w c ->
  names (history sample l w) c = first_registrations c (names w c) (outcomes sample l w).
Proof.
  revert w. induction l as [|o l IH]; intros w S T U H; [reflexivity|]. inversion U as [|? ? U1 U2]; subst.
  rewrite history_cons. destruct (since_step sample o w S) as [S' H']. rewrite IH; auto; [|now apply tidy_perform].
  rewrite names_step by auto. cbn [outcomes]. generalize (outcomes sample l (fst (perform sample o w))) as r. intros r.
  destruct o; cbn; try reflexivity. now destruct (snd _).
Qed.

(** A name stays bound to the prior and the parameter of its first registration: asking for it again returns that very
    parameter (nothing changes) if the priors are equivalent or verification is suspended, and is refused otherwise. *)
Theorem C38_bound : forall sample l c n d p w, perform sample (ORegister c n d) (history sample l no_world) = (w, Ok (Some p)) ->
  exists known, prior_at w c n = Some known /\ (prior_at (history sample l no_world) c n = None -> known = d) /\
    (prior_at (history sample l no_world) c n <> None -> w = history sample l no_world) /\
    forall l' d', let w' := history sample l' w in prior_at w' c n = Some known /\
      perform sample (ORegister c n d') w' =
        (w', if verifies w' c then match equivalent_to known d' with
                                   | Ok true => Ok (Some p) | Ok false => Raise NotSamePriorError | Raise e => Raise e end
             else Ok (Some p)).
Proof.
  intros sample l c n d p w E. pose proof (sub_reach sample l) as S. cbn [perform] in E. unfold abind in E.
  destruct (named_parameter sample c n d (history sample l no_world)) as [w1 [q|e]] eqn:R; [|discriminate].
  unfold ret in E. injection E as -> ->. pose proof (since_named_parameter sample (history sample l no_world) c n d (history sample l no_world) (conj S (grows_refl _))) as G1.
  rewrite R in G1. destruct G1 as [S1 G1]. cbn in S1.
  destruct (registered sample c n d _ _ _ S R) as (H & P & k & K & K1 & K2). exists k. do 3 (split; [assumption|]).
  intros l' d' w'. destruct (since_history sample l' w S1) as [S2 G2]. fold w' in S2, G2.
  assert (B : exists b, batch_of w c = Some b).
  { rewrite named_eq in R. destruct (x_batch (ctx_at (history sample l no_world) c)) as [b|] eqn:B; [|discriminate].
    exists b. apply (g_batch _ _ G1); [now apply (some_exists _ _ b)|exact B]. }
  destruct B as [b B]. apply (g_batch _ _ G2) in B; [|exact H]. apply (g_prior _ _ G2) in K; [|exact H]. apply (g_param _ _ G2) in P; [|exact H].
  split; [exact K|]. cbn [perform]. unfold abind. rewrite named_eq. unfold batch_of in B. rewrite B, K, P.
  destruct (verifies w' c); [destruct (equivalent_to k d') as [[|]|]|]; reflexivity.
Qed.
Print Assumptions C38_bound.

(** With unbatched priors, parameters and priors are listed under the names registered with success, in that order. *)
Theorem C38_names : forall sample l l' c, let w := history sample l no_world in Forall unbatched l -> Forall unbatched l' -> exists_ctx w c ->
  names (history sample l' w) c = first_registrations c (names w c) (outcomes sample l' w) /\
  priors (history sample l' w) c = names (history sample l' w) c.
Proof.
  intros sample l l' c w U U' H. split; [apply names_history; auto; [apply sub_reach|now apply tidy_reach]|].
  unfold w. rewrite <- history_app. symmetry. apply (tidy_reach sample (l ++ l')); [now apply Forall_app|].
  unfold exists_ctx in *. pose proof (g_ctxs _ _ (grows_history sample l l')). fold w in H0. lia.
Qed.
Print Assumptions C38_names.

(** * C39 *)
(** Registering a batched prior is refused, but the name keeps the prior: asking for it again with an equivalent, now
    unbatched, prior is answered that the parameter does not exist, and so is every attempt to copy the context. *)
Theorem C39_refused_refuted : forall sample l c n d b, let w := history sample l no_world in
  batch_of w c = Some b -> prior_at w c n = None -> d_batched d = true ->
  exists w', perform sample (ORegister c n d) w = (w', Raise AssertionError) /\
    prior_at w' c n = Some d /\ param_id w' c n = None /\
    (forall d', equivalent_to d d' = Ok true -> perform sample (ORegister c n d') w' = (w', Raise ParameterDoesNotExist)) /\
    exists e, snd (perform sample (OCopy c) w') = Raise e.
Proof.
  intros sample l c n d b w B N U. pose proof (some_exists w c b B) as H. pose proof (sub_reach sample l c n H N) as P. fold w in P.
  cbn [perform]. unfold abind at 1. rewrite named_eq. unfold batch_of in B. rewrite B, N, register_eq, U by exact H. eexists. split; [reflexivity|].
  set (w' := World _ _ _ _).
  assert (E : ctx_at w' c = with_prior (ctx_at w c) n d). { unfold ctx_at at 1. cbn. rewrite rep_nth, Nat.eqb_refl. apply Nat.ltb_lt in H. now rewrite H. }
  assert (K : prior_at w' c n = Some d) by (unfold prior_at; rewrite E; cbn; now rewrite od_get_set, String.eqb_refl).
  assert (Q : param_id w' c n = None) by (unfold param_id; rewrite E; exact P).
  split; [exact K|]. split; [exact Q|]. split.
  - intros d' X. unfold abind. rewrite named_eq, E. cbn [with_prior x_batch]. rewrite B, K, Q. unfold equivalent_to in *.
    destruct (verifies w' c); [rewrite X|]; reflexivity.
  - unfold abind, copy, apply_fun. unfold abind at 1, get_ctx. fold (ctx_at w' c). unfold abind at 1.
    match goal with |- context [let (_, _) := collect ?l ?f w' in _] => destruct (collect l f w') as [w2 [temp|e]] eqn:C end; [|cbn; eauto].
    exfalso. apply (temp_rows c (ctx_at w' c) (fun t => t)) in C. destruct C as [_ F].
    assert (I : In (n, d) (x_priors (ctx_at w' c))) by now apply od_get_in.
    clear -F I Q. induction F as [|kd q l1 l2 R F IH]; [destruct I|]. destruct I as [->|I]; [|auto]. destruct R as (p & s & R & _). cbn in R. congruence.
Qed.
Print Assumptions C39_refused_refuted.

(** Every other refusal leaves everything as it was. *)
Theorem C39_refused_partial : forall sample l c n d w e, perform sample (ORegister c n d) (history sample l no_world) = (w, Raise e) ->
  d_batched d = false \/ prior_at (history sample l no_world) c n <> None \/ batch_of (history sample l no_world) c = None ->
  w = history sample l no_world.
Proof.
  intros sample l c n d w e. set (w0 := history sample l no_world). cbn [perform]. unfold abind. rewrite named_eq. unfold batch_of.
  destruct (x_batch (ctx_at w0 c)) as [b|] eqn:B; [|congruence]. destruct (prior_at w0 c n) as [k|] eqn:K.
  - intros E _. revert E. destruct (verifies w0 c); [destruct (equivalent_to k d) as [[|]|]|]; try (intros [= <- _]; reflexivity);
    destruct (param_id w0 c n); unfold ret; intros [= <- _]; reflexivity.
  - rewrite register_eq by now apply (some_exists w0 c b). destruct (d_batched d); [intros _ [|[|]]; congruence|discriminate].
Qed.
Print Assumptions C39_refused_partial.

(** A program registering two parameters in a context with batch shape (2,), one of them again, then the same name with
    another prior, and a batched prior at last. *)
Definition normal_prior : dist := Dist "Normal" [("loc"%string, [Fin 0]); ("scale"%string, [Fin 1])] 0 false [] [] (fun _ => true) (fun x => x) (fun x => x) (fun _ => Fin 0) (fun _ => Fin 0).
Definition simplex_prior : dist := Dist "Dirichlet" [("concentration"%string, [Fin 1; Fin 1])] 0 false [2] [1] (fun _ => true) (fun x => x ++ x) (fun x => firstn 1 x) (fun _ => Fin 0) (fun _ => Fin 0).
Definition batched_prior : dist := Dist "Normal" [("loc"%string, [Fin 0; Fin 0]); ("scale"%string, [Fin 1])] 0 true [] [] (fun _ => true) (fun x => x) (fun x => x) (fun _ => Fin 0) (fun _ => Fin 0).
Definition some_sample (r : nat) (d : dist) (n : nat) : list (list xf) := repeat (repeat (Fin 2) (prod_list (d_event d))) n.
Lemma normal_same : equivalent_to normal_prior normal_prior = Ok true.
Proof. cbv -[xeqb IZR]. unfold xeqb. destruct (Req_EM_T 0 0), (Req_EM_T 1 1); try reflexivity; exfalso; auto. Qed.
Lemma batched_normal : equivalent_to batched_prior normal_prior = Ok true.
Proof. cbv -[xeqb IZR]. unfold xeqb. destruct (Req_EM_T 0 0), (Req_EM_T 1 1); try reflexivity; exfalso; auto. Qed.
Definition opening : list op := [ONew None; OShape 0 [2]; ORegister 0 "a" normal_prior; ORegister 0 "b" simplex_prior].
Example C37_C38_C39_nonvacuous : let w := history some_sample opening no_world in
  exists_ctx w 0 /\ batch_of w 0 = Some [2] /\ names w 0 = ["a"%string; "b"%string] /\ Forall unbatched opening /\
  batch_of (history some_sample [ONew None] no_world) 0 = None /\
  snd (perform some_sample (OShape 0 [3]) w) = Raise BatchShapeAlreadySet /\
  snd (perform some_sample (ORegister 0 "a" normal_prior) w) = Ok (Some 0) /\
  snd (perform some_sample (ORegister 0 "a" simplex_prior) w) = Raise NotSamePriorError /\
  prior_at w 0 "c" = None /\ d_batched batched_prior = true /\ equivalent_to batched_prior normal_prior = Ok true.
Proof.
  intros w. unfold w. clear w. repeat match goal with |- _ /\ _ => split end; try (cbv -[IZR]; reflexivity); try apply batched_normal.
  - repeat constructor.
  - cbn [perform]. unfold abind. rewrite named_eq. cbn -[equivalent_to]. now rewrite normal_same.
Qed.
