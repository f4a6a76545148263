(** Properties C40-C43 (pyfilter/inference/context.py, pyfilter/inference/parameter.py). *)
From Coq Require Import Reals List Bool Arith String Lia.
From Verif.Model Require Import Base Xf Prior Context.
From Verif.Spec Require Import ContextSpec.
From Verif.Proofs Require Import ContextProofs ContextHeap.
From Verif.Props Require Import ContextProps.
Import ListNotations.
Local Open Scope list_scope.
Local Open Scope nat_scope.

(** A world is reached by a program without load_state_dict. *)
Definition reached (sample : nat -> dist -> nat -> list (list xf)) (w : world) : Prop :=
  sampler_ok sample /\ exists l, Forall no_load l /\ w = history sample l no_world.
Lemma reached_coherent sample w : reached sample w -> coherent w.
Proof. intros (S & l & N & ->). now apply co_reach. Qed.

Lemma other_context w c c' n p : coherent w -> exists_ctx w c -> exists_ctx w c' -> c' <> c -> In (n, p) (x_params (ctx_at w c')) -> ~ In p (map snd (x_params (ctx_at w c))).
Proof.
  intros C H H' N I J. apply in_map_iff in J. destruct J as ([m q] & E & J). cbn in E. subst q.
  destruct (co_param w C c' n p H' I) as (_ & E1 & _). destruct (co_param w C c m p H J) as (_ & E2 & _). congruence.
Qed.
(** What the loop leaves alone. *)
Lemma after_other {A} (pid : A -> nat) g l w w' c c' n : coherent w -> exists_ctx w c -> exists_ctx w c' -> c' <> c ->
  (forall a, In a l -> In (pid a) (map snd (x_params (ctx_at w c)))) -> after pid g w l w' -> value w' c' n = value w c' n.
Proof.
  intros C H H' N P (_ & T & _ & F). unfold value. destruct T as (T1 & T2 & T3).
  assert (E : param_id w' c' n = param_id w c' n) by (unfold param_id, ctx_at; now rewrite T1). rewrite E.
  destruct (param_id w c' n) as [p|] eqn:Q; [|reflexivity]. cbn. f_equal. apply od_get_in in Q.
  apply F; [now apply (co_param w C c' n)|]. intros J. apply in_map_iff in J. destruct J as (a & E2 & J).
  apply (other_context w c c' n p C H H' N Q). rewrite <- E2. now apply P.
Qed.

(** * C42 *)
Definition resample_goal (idx : list nat) (w : world) (np : string * nat) : res (list (list xf)) := gather_rows (t_rows (value_at w (snd np))) idx.
Lemma resample_loop w c idx : coherent w -> exists_ctx w c -> exists l1 l2, x_params (ctx_at w c) = l1 ++ l2 /\
  after snd (resample_goal idx w) w l1 (fst (resample c idx w)) /\
  match l2 with [] => snd (resample c idx w) = Ok tt | a :: _ => exists e, g' snd (resample_goal idx w) w a = Raise e /\ snd (resample c idx w) = Raise e end.
Proof.
  intros C H. unfold resample. unfold abind at 1 2 4, get_ctx. fold (ctx_at w c).
  apply (loop_effect snd _ (resample_goal idx w) (x_params (ctx_at w c)) w C).
  - intros [n p] I. now apply (co_param w C c n p).
  - now apply params_nodup.
  - intros [n p] w' I (A1 & A2 & A3 & A4). cbn [snd] in *. unfold param_value. unfold abind at 1 2, get_obj, get_data. fold (value_at w' p).
    unfold abind, lift. unfold resample_goal. cbn [snd]. rewrite A3. destruct (gather_rows _ idx); reflexivity.
Qed.
Lemma batch_fits w c n p : coherent w -> exists_ctx w c -> In (n, p) (x_params (ctx_at w c)) ->
  exists d, prior_at w c n = Some d /\ t_event (value_at w p) = d_event d /\ List.length (t_rows (value_at w p)) = batch_size w c /\
    Forall (fun r => List.length r = prod_list (d_event d)) (t_rows (value_at w p)).
Proof.
  intros C H I. destruct (co_param w C c n p H I) as (_ & _ & _ & d & b & D & B & _ & _ & F1 & F2 & F3 & F4).
  exists d. unfold batch_size. rewrite B. auto.
Qed.
Lemma fits_check (rows : list (list xf)) e n : List.length rows = n -> Forall (fun r => List.length r = prod_list e) rows ->
  (List.length rows =? n) && forallb (fun r => List.length r =? prod_list e) rows = true.
Proof. intros -> F. rewrite Nat.eqb_refl. cbn. apply forallb_forall. intros r I. rewrite Forall_forall in F. apply Nat.eqb_eq. auto. Qed.
Lemma gathered_rows (l : list (list xf)) idx e : Forall (fun r => List.length r = e) l -> Forall (fun i => i < List.length l) idx ->
  Forall (fun r => List.length r = e) (map (fun i => nth i l []) idx).
Proof. intros F. induction 1; cbn; constructor; auto. rewrite Forall_forall in F. apply F. now apply nth_In. Qed.

(** Resampling a context: entry [b] of every parameter is what its entry [idx_b] was, for all parameters alike; nothing
    else changes.  Indices of the wrong number or out of range are refused and nothing changes. *)
Theorem C42_resample : forall sample w c idx, reached sample w -> exists_ctx w c ->
  (List.length idx = batch_size w c -> Forall (fun i => i < batch_size w c) idx ->
   exists w', perform sample (OResample c idx) w = (w', Ok None) /\ same_tables w w' /\
     (forall n, In n (names w c) -> List.length (rows_of w' c n) = batch_size w c /\
        forall b, b < List.length idx -> entry w' c n b = entry w c n (nth b idx 0)) /\
     (forall c' n, exists_ctx w c' -> c' <> c -> value w' c' n = value w c' n)) /\
  (names w c <> [] -> List.length idx <> batch_size w c \/ ~ Forall (fun i => i < batch_size w c) idx ->
   exists e, perform sample (OResample c idx) w = (w, Raise e)).
Proof.
  intros sample w c idx R H. apply reached_coherent in R. pose proof R as C. destruct (resample_loop w c idx C H) as (l1 & l2 & E & F & G).
  set (w' := fst (resample c idx w)) in *.
  assert (P : resample c idx w = (w', snd (resample c idx w))) by apply surjective_pairing.
  split.
  - intros L I.
    assert (Q : forall n p, In (n, p) (x_params (ctx_at w c)) -> g' snd (resample_goal idx w) w (n, p) = Ok (map (fun i => nth i (t_rows (value_at w p)) []) idx)).
    { intros n p J. destruct (batch_fits w c n p C H J) as (d & D & E1 & E2 & E3). unfold g', resample_goal. cbn [snd].
      rewrite gather_spec by now rewrite E2. rewrite E1. rewrite fits_check; [reflexivity|rewrite map_length; congruence|]. apply gathered_rows; [exact E3|now rewrite E2]. }
    destruct l2 as [|[n2 p2] l2].
    2:{ destruct G as (e & G & _). rewrite Q in G; [discriminate|]. rewrite E. apply in_or_app. right. now left. }
    exists w'. cbn [perform]. unfold abind. rewrite P, G. split; [reflexivity|]. rewrite app_nil_r in E. subst l1.
    destruct F as (F1 & F2 & F3 & F4). split; [exact F2|]. split.
    + intros n J. apply names_params in J. destruct J as [p J]. destruct (F3 (n, p) J) as (rows & G1 & G2). rewrite (Q n p J) in G1. injection G1 as <-. cbn [snd] in G2.
      destruct (by_name w w' c n p C F2 H J) as [V' V]. unfold entry, rows_of. rewrite V', V, G2. cbn. split; [rewrite map_length; congruence|].
      intros b Hb. destruct (batch_fits w c n p C H J) as (d & _ & _ & E2 & _).
      assert (nth b idx 0 < batch_size w c) by (rewrite Forall_forall in I; apply I; now apply nth_In).
      rewrite nth_error_map. rewrite (nth_error_nth' idx 0 Hb). cbn. symmetry. apply nth_error_nth'. lia.
    + intros c' n H' N. apply (after_other snd (resample_goal idx w) (x_params (ctx_at w c)) w w' c); auto; [|now split]. intros a J. now apply in_map.
  - intros N B.
    assert (Q : forall n p, In (n, p) (x_params (ctx_at w c)) -> exists e, g' snd (resample_goal idx w) w (n, p) = Raise e).
    { intros n p J. destruct (batch_fits w c n p C H J) as (d & D & E1 & E2 & E3). unfold g', resample_goal. cbn [snd].
      destruct (gather_rows (t_rows (value_at w p)) idx) as [rows|e] eqn:X; [|eauto].
      destruct B as [B|B].
      - apply gather_len in X. destruct (Nat.eqb_spec (List.length rows) (List.length (t_rows (value_at w p)))) as [Y|Y]; [|cbn; eauto]. exfalso. lia.
      - exfalso. rewrite gather_bad in X; [discriminate|]. now rewrite E2. }
    assert (l1 = []).
    { destruct l1 as [|[n p] l1]; [reflexivity|]. exfalso. destruct F as (_ & _ & F3 & _). destruct (F3 (n, p)) as (rows & G1 & _); [now left|].
      destruct (Q n p) as [e G2]; [rewrite E; now left|]. congruence. }
    subst l1. cbn in E. subst l2. unfold names in N. destruct (x_params (ctx_at w c)) as [|[n p] l] eqn:X; [now contradiction N|].
    destruct G as (e & G1 & G2). exists e. cbn [perform]. unfold abind. rewrite P, G2. f_equal.
    unfold w'. unfold resample, abind, get_ctx. fold (ctx_at w c). rewrite X. cbn [for_each]. unfold abind, param_value. unfold abind, get_obj, get_data. cbn [snd]. fold (value_at w p).
    unfold g', resample_goal in G1. cbn [snd] in G1. unfold lift. destruct (gather_rows _ idx) as [rows|e']; [|reflexivity]. rewrite copy_rows_eq. destruct (_ && _); [discriminate|reflexivity].
Qed.
Print Assumptions C42_resample.

Lemma rows_entries w c n w2 c2 n2 : (forall b, entry w c n b = entry w2 c2 n2 b) -> rows_of w c n = rows_of w2 c2 n2.
Proof.
  unfold entry, rows_of. intros H. assert (K : forall b, nth_error (match value w c n with Some t => t_rows t | None => [] end) b = nth_error (match value w2 c2 n2 with Some t => t_rows t | None => [] end) b).
  { intros b. specialize (H b). destruct (value w c n), (value w2 c2 n2); rewrite ?H; try rewrite <- H; now destruct b. }
  revert K. generalize (match value w c n with Some t => t_rows t | None => [] end) (match value w2 c2 n2 with Some t => t_rows t | None => [] end).
  induction l as [|a l IH]; intros [|b l'] K; auto; try (specialize (K 0); discriminate). pose proof (K 0) as K0. cbn in K0. injection K0 as ->. f_equal. apply IH. intros i. exact (K (S i)).
Qed.
Lemma reached_step sample w o : reached sample w -> no_load o -> reached sample (fst (perform sample o w)).
Proof. intros (S & l & N & ->) H. split; [exact S|]. exists (l ++ [o]). split; [apply Forall_app; auto|]. now rewrite history_app. Qed.
Lemma same_tables_sizes w w' c : same_tables w w' -> batch_size w' c = batch_size w c /\ (exists_ctx w c -> exists_ctx w' c) /\ names w' c = names w c /\ (forall n, prior_at w' c n = prior_at w c n).
Proof. intros (T & _). unfold batch_size, batch_of, exists_ctx, names, prior_at, ctx_at. rewrite T. auto. Qed.

(** Resampling twice is resampling with the composed indices. *)
Theorem C42_twice : forall sample w c i1 i2, reached sample w -> exists_ctx w c ->
  List.length i1 = batch_size w c -> List.length i2 = batch_size w c -> Forall (fun i => i < batch_size w c) i1 -> Forall (fun i => i < batch_size w c) i2 ->
  forall n, In n (names w c) ->
    rows_of (history sample [OResample c i1; OResample c i2] w) c n = rows_of (history sample [OResample c (map (fun i => nth i i1 0) i2)] w) c n.
Proof.
  intros sample w c i1 i2 R H L1 L2 I1 I2 n N.
  assert (I3 : Forall (fun i => i < batch_size w c) (map (fun i => nth i i1 0) i2)).
  { apply Forall_forall. intros i J. apply in_map_iff in J. destruct J as (j & <- & J). rewrite Forall_forall in I1, I2. apply I1. apply nth_In. rewrite L1. auto. }
  destruct (proj1 (C42_resample sample w c i1 R H) L1 I1) as (w1 & E1 & T1 & V1 & _).
  destruct (same_tables_sizes w w1 c T1) as (B1 & X1 & N1 & _).
  pose proof (reached_step sample w (OResample c i1) R I) as R1. rewrite E1 in R1. cbn in R1. rewrite <- B1 in L2, I2.
  destruct (proj1 (C42_resample sample w1 c i2 R1 (X1 H)) L2 I2) as (w2 & E2 & T2 & V2 & _).
  destruct (proj1 (C42_resample sample w c _ R H) ltac:(rewrite map_length, L2; exact B1) I3) as (w3 & E3 & T3 & V3 & _).
  rewrite !history_cons, E1, E3. cbn [fst]. rewrite E2. cbn [history fold_left fst].
  destruct (V1 n N) as [Q1 V1']. rewrite <- N1 in N. destruct (V2 n N) as [Q2 V2']. rewrite N1 in N. destruct (V3 n N) as [Q3 V3'].
  apply rows_entries. intros b. destruct (Nat.lt_ge_cases b (List.length i2)) as [Hb|Hb].
  - rewrite V2' by exact Hb. rewrite V3' by now rewrite map_length. rewrite V1'.
    + rewrite (nth_indep (map (fun i => nth i i1 0) i2) 0 (nth 0 i1 0)) by now rewrite map_length. now rewrite (map_nth (fun i => nth i i1 0)).
    + rewrite Forall_forall in I2. rewrite L1, <- B1. apply I2. now apply nth_In.
  - unfold entry, rows_of in *. assert (K2 : b >= batch_size w1 c) by lia. assert (K3 : b >= batch_size w c) by lia.
    destruct (value w2 c n) as [t2|], (value w3 c n) as [t3|]; rewrite ?(proj2 (nth_error_None _ _)); auto; lia.
Qed.
Print Assumptions C42_twice.

(** * C43 *)
Fixpoint pick_rows {A} (mask : list bool) (old new : list A) : list A :=
  match mask, old, new with b :: m, o :: os, n :: ns => (if b then n else o) :: pick_rows m os ns | _, _, _ => [] end.
Lemma scatter_spec mask : forall old new e, List.length mask = List.length old -> List.length mask = List.length new ->
  Forall (fun r : list xf => List.length r = e) old -> Forall (fun r : list xf => List.length r = e) new ->
  scatter mask old (List.concat (select mask new)) = Ok (pick_rows mask old new).
Proof.
  induction mask as [|b mask IH]; intros [|o old] [|n new] e L1 L2 F1 F2; try discriminate; [reflexivity|]. inversion F1; inversion F2; subst. injection L1 as L1. injection L2 as L2.
  cbn [scatter pick_rows]. destruct b.
  - change (select (true :: mask) (n :: new)) with (n :: select mask new). cbn [List.concat]. rewrite app_length. replace (List.length o) with (List.length n) by congruence.
    destruct (Nat.ltb_spec (List.length n + List.length (List.concat (select mask new))) (List.length n)) as [K|K]; [exfalso; clear -K; lia|].
    rewrite skipn_app, skipn_all, Nat.sub_diag, firstn_app, firstn_all, Nat.sub_diag. cbn [app skipn firstn]. rewrite app_nil_r.
    rewrite (IH old new (List.length o)) by assumption. reflexivity.
  - change (select (false :: mask) (n :: new)) with (select mask new). rewrite (IH old new (List.length o)) by assumption. reflexivity.
Qed.
Lemma pick_nth {A} mask : forall (old new : list A) b, List.length mask = List.length old -> List.length mask = List.length new ->
  nth_error (pick_rows mask old new) b = if nth b mask false then nth_error new b else nth_error old b.
Proof.
  induction mask as [|c mask IH]; intros [|o old] [|n new] b L1 L2; try discriminate; [now destruct b|].
  destruct b; cbn; [now destruct c|]. apply IH; auto.
Qed.
Lemma pick_len {A} mask : forall (old new : list A), List.length mask = List.length old -> List.length mask = List.length new -> List.length (pick_rows mask old new) = List.length old.
Proof. induction mask as [|c mask IH]; intros [|o old] [|n new] L1 L2; try discriminate; cbn; auto. Qed.
Lemma NoDup_app_disjoint_snd {A} (l1 l2 : list A) : NoDup (l1 ++ l2) -> forall a, In a l1 -> In a l2 -> False.
Proof.
  induction l1 as [|b l1 IH]; cbn; intros N a; [easy|]. intros [->|I1] I2; inversion N; subst; [apply H1; apply in_or_app; now right|]. exact (IH H2 a I1 I2).
Qed.
Lemma pick_forall {A} (P : A -> Prop) mask : forall (old new : list A), Forall P old -> Forall P new -> Forall P (pick_rows mask old new).
Proof. induction mask as [|c mask IH]; intros [|o old] [|n new] F1 F2; cbn; try constructor; inversion F1; inversion F2; subst; auto. now destruct c. Qed.

Lemma param_value_eq p w : param_value p w = (w, Ok (value_at w p)).
Proof. reflexivity. Qed.
Definition exchange_goal (other : nat) (mask : list bool) (w : world) (np : string * nat) : res (list (list xf)) :=
  match param_id w other (fst np) with
  | None => Raise ParameterDoesNotExist
  | Some q =>
      if List.length mask =? List.length (t_rows (value_at w q)) then
        if List.length mask =? List.length (t_rows (value_at w (snd np)))
        then scatter mask (t_rows (value_at w (snd np))) (List.concat (select mask (t_rows (value_at w q))))
        else Raise RuntimeError
      else Raise IndexError
  end.
Definition exchange_body (other : nat) (mask : list bool) (np : string * nat) : act unit :=
  do! q <- get_parameter other (fst np) in
  do! t <- param_value q in
  if List.length mask =? List.length (t_rows t) then
    do! o <- param_value (snd np) in
    if List.length mask =? List.length (t_rows o)
    then do! rows <- lift (scatter mask (t_rows o) (List.concat (select mask (t_rows t)))) in copy_rows (snd np) rows
    else raise RuntimeError
  else raise IndexError.
Lemma exchange_eq c other mask w : exchange c other mask w = for_each (x_params (ctx_at w c)) (exchange_body other mask) w.
Proof. reflexivity. Qed.
Lemma exchange_loop w c other mask : coherent w -> exists_ctx w c -> exists_ctx w other -> exists l1 l2, x_params (ctx_at w c) = l1 ++ l2 /\
  after snd (exchange_goal other mask w) w l1 (fst (exchange c other mask w)) /\
  match l2 with [] => snd (exchange c other mask w) = Ok tt | a :: _ => exists e, g' snd (exchange_goal other mask w) w a = Raise e /\ snd (exchange c other mask w) = Raise e end.
Proof.
  intros C H HO. rewrite !exchange_eq.
  apply (loop_effect snd _ (exchange_goal other mask w) (x_params (ctx_at w c)) w C).
  - intros [n p] I. now apply (co_param w C c n p).
  - now apply params_nodup.
  - intros [n p] w' I (A1 & A2 & A3 & A4). cbn [snd fst] in *.
    assert (G : get_parameter other n w' = (w', match param_id w other n with Some q => Ok q | None => Raise ParameterDoesNotExist end)).
    { unfold get_parameter, abind, get_ctx, param_id, ctx_at. rewrite A2. now destruct od_get. }
    unfold exchange_body. unfold abind at 1. cbn [fst snd]. rewrite G. unfold exchange_goal. cbn [fst snd]. destruct (param_id w other n) as [q|] eqn:Q; [|reflexivity].
    assert (V : value_at w' q = value_at w q).
    { destruct (Nat.eq_dec other c) as [->|N].
      - apply param_in in I; auto. assert (q = p) by congruence. now subst.
      - apply od_get_in in Q. apply A4; [now apply (co_param w C other n)|]. now apply (other_context w c other n q). }
    unfold abind at 1. rewrite param_value_eq, V. cbn beta iota.
    destruct (List.length mask =? List.length (t_rows (value_at w q))); [|reflexivity]. unfold abind at 1. rewrite param_value_eq, A3. cbn beta iota.
    destruct (List.length mask =? List.length (t_rows (value_at w p))); [|reflexivity]. unfold abind, lift. destruct scatter; reflexivity.
Qed.

(** Exchanging with another context whose parameters of the same names have samples of the same size: the masked entries
    are the other's, the unmasked ones stay, nothing else changes.  If the other lacks a name, that is reported. *)
Theorem C43_exchange_partial : forall sample w c other mask, reached sample w -> exists_ctx w c -> exists_ctx w other ->
  List.length mask = batch_size w c -> List.length mask = batch_size w other ->
  (forall n, In n (names w c) -> In n (names w other) -> size_of w other true n = size_of w c true n) ->
  exists w', same_tables w w' /\ (forall c' n, exists_ctx w c' -> c' <> c -> value w' c' n = value w c' n) /\
    exists done left, names w c = done ++ left /\ incl done (names w other) /\
      (forall n b, In n done -> entry w' c n b = if nth b mask false then entry w other n b else entry w c n b) /\
      (forall n, In n left -> value w' c n = value w c n) /\
      match left with
      | [] => perform sample (OExchange c other mask) w = (w', Ok None)
      | n :: _ => ~ In n (names w other) /\ perform sample (OExchange c other mask) w = (w', Raise ParameterDoesNotExist)
      end.
Proof.
  intros sample w c other mask R H HO L1 L2 Z. pose proof (reached_coherent _ _ R) as C.
  destruct (exchange_loop w c other mask C H HO) as (l1 & l2 & E & F & G). set (w' := fst (exchange c other mask w)) in *.
  assert (P : exchange c other mask w = (w', snd (exchange c other mask w))) by apply surjective_pairing.
  assert (Q : forall n p, In (n, p) (x_params (ctx_at w c)) -> g' snd (exchange_goal other mask w) w (n, p) =
    match param_id w other n with None => Raise ParameterDoesNotExist | Some q => Ok (pick_rows mask (t_rows (value_at w p)) (t_rows (value_at w q))) end).
  { intros n p J. destruct (batch_fits w c n p C H J) as (d & D & E1 & E2 & E3). unfold g', exchange_goal. cbn [snd fst].
    destruct (param_id w other n) as [q|] eqn:Q; [|reflexivity]. apply od_get_in in Q.
    destruct (batch_fits w other n q C HO Q) as (d' & D' & E1' & E2' & E3'). rewrite E2, E2'.
    rewrite (proj2 (Nat.eqb_eq _ _) L1), (proj2 (Nat.eqb_eq _ _) L2).
    assert (S : prod_list (d_event d') = prod_list (d_event d)).
    { specialize (Z n). unfold size_of in Z. rewrite D, D' in Z. apply Z; unfold names; [now apply (in_map fst) in J|now apply (in_map fst) in Q]. }
    rewrite S in E3'. rewrite (scatter_spec mask _ _ (prod_list (d_event d))) by (auto; congruence).
    rewrite E1, fits_check; [reflexivity|rewrite pick_len; congruence|]. now apply pick_forall. }
  exists w'. destruct F as (F1 & F2 & F3 & F4). split; [exact F2|]. split.
  { intros c' n H' N. apply (after_other snd (exchange_goal other mask w) l1 w w' c); auto; [|now split].
    intros a J. rewrite E, map_app. apply in_or_app. left. now apply in_map. }
  exists (map fst l1), (map fst l2). unfold names at 1. rewrite E, map_app. split; [reflexivity|].
  assert (S1 : forall n p, In (n, p) l1 -> In (n, p) (x_params (ctx_at w c))) by (intros; rewrite E; apply in_or_app; auto).
  assert (S2 : forall n p, In (n, p) l2 -> In (n, p) (x_params (ctx_at w c))) by (intros; rewrite E; apply in_or_app; auto).
  assert (K : forall n p, In (n, p) l1 -> exists q, param_id w other n = Some q /\ value_at w' p = set_rows (value_at w p) (pick_rows mask (t_rows (value_at w p)) (t_rows (value_at w q)))).
  { intros n p J. destruct (F3 (n, p) J) as (rows & G1 & G2). rewrite Q in G1 by auto. destruct (param_id w other n) as [q|]; [|discriminate].
    injection G1 as <-. exists q. auto. }
  split; [|split; [|split]].
  - intros n J. apply in_map_iff in J. destruct J as ([n' p] & E1 & J). cbn in E1. subst n'. destruct (K n p J) as (q & E2 & _). apply od_get_in in E2. unfold names. now apply (in_map fst) in E2.
  - intros n b J. apply in_map_iff in J. destruct J as ([n' p] & E1 & J). cbn in E1. subst n'. destruct (K n p J) as (q & E2 & E3).
    destruct (by_name w w' c n p C F2 H (S1 n p J)) as [V' V]. unfold entry. rewrite V', V. unfold value. rewrite E2. cbn. rewrite E3. cbn.
    apply od_get_in in E2. destruct (batch_fits w c n p C H (S1 n p J)) as (_ & _ & _ & B1 & _). destruct (batch_fits w other n q C HO E2) as (_ & _ & _ & B2 & _).
    apply pick_nth; congruence.
  - intros n J. apply in_map_iff in J. destruct J as ([n' p] & E1 & J). cbn in E1. subst n'.
    destruct (by_name w w' c n p C F2 H (S2 n p J)) as [V' V]. rewrite V', V. f_equal. apply F4; [now apply (co_param w C c n p H (S2 n p J))|].
    intros J'. pose proof (params_nodup w c C H) as ND. rewrite E, map_app in ND. apply (in_map snd) in J. cbn in J.
    exact (NoDup_app_disjoint_snd _ _ ND p J' J).
  - destruct l2 as [|[n p] l2]; cbn [map]; cbn [perform]; unfold abind; rewrite P.
    + rewrite G. reflexivity.
    + destruct G as (e & G1 & G2). rewrite Q in G1 by (apply S2; now left). cbn [fst]. rewrite G2. destruct (param_id w other n) as [q|] eqn:X; [discriminate|].
      injection G1 as <-. split; [|reflexivity]. apply od_get_none. exact X.
Qed.
Print Assumptions C43_exchange_partial.

(** Parameters of the same name but with samples of other sizes: the exchange is accepted and the elements of the other
    context's samples are dealt out one after the other, so entry 1 receives an element of the other's entry 0. *)
Definition numbered (r : nat) (d : dist) (n : nat) : list (list xf) :=
  map (fun b => map (fun i => Fin (INR (10 * b + i))) (seq 0 (prod_list (d_event d)))) (seq 0 n).
Lemma numbered_ok : sampler_ok numbered.
Proof.
  intros r d n. unfold numbered. split; [now rewrite map_length, seq_length|]. apply Forall_forall. intros row I. apply in_map_iff in I.
  destruct I as (b & <- & _). now rewrite map_length, seq_length.
Qed.
Definition two_contexts : list op :=
  [ONew None; OShape 0 [2]; ORegister 0 "a" normal_prior; ONew None; OShape 1 [2]; ORegister 1 "a" simplex_prior].
Theorem C43_other_sizes_refuted : let w := history numbered two_contexts no_world in reached numbered w /\
  exists w', perform numbered (OExchange 0 1 [true; true]) w = (w', Ok None) /\
    entry w' 0 "a" 1 = Some [Fin (INR 1)] /\ entry w 1 "a" 1 = Some [Fin (INR 10); Fin (INR 11)] /\ entry w 1 "a" 0 = Some [Fin (INR 0); Fin (INR 1)].
Proof.
  intros w. split.
  - split; [apply numbered_ok|]. exists two_contexts. split; [repeat constructor|reflexivity].
  - unfold w. clear w. eexists. split; [cbv -[INR]; reflexivity|]. repeat split; cbv -[INR]; reflexivity.
Qed.
Print Assumptions C43_other_sizes_refuted.

(** * The hypotheses can be met *)
Definition two_alike : list op :=
  [ONew None; OShape 0 [2]; ORegister 0 "a" normal_prior; ORegister 0 "s" simplex_prior;
   ONew None; OShape 1 [2]; ORegister 1 "s" simplex_prior; ORegister 1 "a" normal_prior].
Example C42_C43_nonvacuous : let w := history numbered two_alike no_world in
  reached numbered w /\ exists_ctx w 0 /\ exists_ctx w 1 /\ batch_size w 0 = 2 /\ batch_size w 1 = 2 /\
  (forall n, In n (names w 0) -> In n (names w 1) -> size_of w 1 true n = size_of w 0 true n) /\
  names w 0 = ["a"%string; "s"%string] /\ Forall (fun i => i < batch_size w 0) [1; 1] /\
  entry (fst (perform numbered (OResample 0 [1; 1]) w)) 0 "a" 0 = Some [Fin (INR 10)] /\ entry w 0 "a" 0 = Some [Fin (INR 0)].
Proof.
  intros w. split; [split; [apply numbered_ok|]; exists two_alike; split; [repeat constructor|reflexivity]|]. split; [cbv; lia|]. split; [cbv; lia|].
  split; [reflexivity|]. split; [reflexivity|]. split; [intros n [<-|[<-|[]]] _; reflexivity|]. split; [reflexivity|].
  split; [repeat constructor; cbv; lia|]. split; cbv -[INR]; reflexivity.
Qed.
