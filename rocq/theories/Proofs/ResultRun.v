(** Runs of filter steps: totals, recorded moments, the current state. *)
From Coq Require Import Reals List Bool Arith ZArith String Lia.
From Verif.Model Require Import Base Xf Container Result.
From Verif.Spec Require ContainerSpec.
From Verif.Spec Require Import ResultSpec.
From Verif.Proofs Require Import ResultProofs ResultReach.
Import ListNotations.
Local Open Scope list_scope.
Local Open Scope nat_scope.

Definition next (v : sview) (c : content) : sview := newly c (v_w v) (v_inds v).

Lemma map_dq_append {A B} (f : A -> B) d x :
  map f (dq_items (dq_append d x)) = dq_items (dq_append (Dq (dq_max d) (map f (dq_items d))) (f x)).
Proof.
  unfold dq_append. cbn [dq_items dq_max]. destruct (dq_max d) as [m|]; cbn [dq_items].
  - rewrite !app_length, map_length. cbn [List.length]. destruct (_ <=? m); cbn [dq_items].
    + now rewrite map_app.
    + now destruct (dq_items d); cbn; rewrite ?map_app.
  - now rewrite map_app.
Qed.
Lemma dq_append_max {A} (d : dq A) x : dq_max (dq_append d x) = dq_max d.
Proof. unfold dq_append. destruct (dq_max d) as [m|] eqn:E; [|reflexivity]. destruct (_ <=? m); reflexivity. Qed.
Lemma dq_eta {A} (d : dq A) : Dq (dq_max d) (dq_items d) = d.
Proof. now destruct d. Qed.

Lemma steps_spec b cs : forall h r o, Inv b h r o -> Forall (content_ok b) cs ->
  exists h' r' o', steps h r o cs = Ok (h', r', o') /\ Inv b h' r' o' /\ r_ll r' = r_ll r /\
    size h <= size h' /\ osize h <= osize h' /\
    get h' (r_ll r) = fold_left (fun t c => added t (n_ll c)) cs (get h (r_ll r)) /\
    (forall a, a < size h -> a <> r_ll r -> get h' a = get h a) /\
    (forall k, k < osize h -> obj h' k = obj h k) /\
    (match cs with [] => o' = o | _ => osize h <= o' /\ s_ll (obj h' o') <> r_ll r end) /\
    view h' o' = fold_left next cs (view h o) /\
    (forall dm dv, with_deques r dm dv -> exists dm' dv', with_deques r' dm' dv' /\
       dq_max dm' = dq_max dm /\ dq_max dv' = dq_max dv /\
       map (get h') (dq_items dm') = dq_items (fold_left dq_append (map n_mean cs) (Dq (dq_max dm) (map (get h) (dq_items dm)))) /\
       map (get h') (dq_items dv') = dq_items (fold_left dq_append (map n_var cs) (Dq (dq_max dv) (map (get h) (dq_items dv))))) /\
    dq_max (r_states r') = dq_max (r_states r).
Proof.
  induction cs as [|c cs IH]; intros h r o HI Hc.
  - exists h, r, o. split; [reflexivity|]. split; [exact HI|]. do 8 (split; [auto|]).
    split; [|reflexivity]. intros dm dv W. exists dm, dv. cbn [map fold_left dq_items]. auto.
  - inversion Hc as [|? ? Hc1 Hc2]; subst.
    destruct (step_spec b h r o c HI Hc1) as (h1 & r1 & o1 & E1 & I1 & L1 & Eo & S1 & O1 & G1 & U1 & K1 & V1 & F1 & Nl & Nm & Nv & Nx & W1 & T1).
    destruct (IH h1 r1 o1 I1 Hc2) as (h2 & r2 & o2 & E2 & I2 & L2 & S2 & O2 & G2 & U2 & K2 & Z2 & V2 & W2 & T2).
    exists h2, r2, o2. unfold steps in *. cbn [foldM]. rewrite E1. cbn [bind]. split; [exact E2|]. split; [exact I2|].
    split; [congruence|]. split; [lia|]. split; [lia|].
    assert (Hr : r_ll r < size h) by (apply (recorded_lt _ _ _ _ _ HI); now left).
    split.
    { rewrite L1 in G2. rewrite G2, G1. reflexivity. }
    split.
    { intros a Ha Hne. rewrite U2; [|lia|congruence]. now apply U1. }
    split.
    { intros k Hk. rewrite K2 by lia. now apply K1. }
    split.
    { destruct cs as [|c' cs].
      - rewrite Z2. split; [lia|]. cbn [foldM] in E2. injection E2 as <- <- <-. unfold size in *. lia.
      - rewrite L1 in Z2. destruct Z2 as [Z2 Z3]. split; [lia|exact Z3]. }
    split.
    { rewrite V2, V1. reflexivity. }
    split; [|rewrite T2, T1; apply dq_append_max].
    intros dm dv W. pose proof (W1 dm dv W) as W'. destruct (W2 _ _ W') as (dm' & dv' & Q & Q1 & Q2 & Q3 & Q4).
    exists dm', dv'. split; [exact Q|]. rewrite dq_append_max in Q1, Q2. split; [exact Q1|]. split; [exact Q2|].
    assert (Hold : forall l, (forall a, In a l -> In a (recorded r) /\ a <> r_ll r) -> map (get h1) l = map (get h) l).
    { intros l Hl. apply map_ext_in. intros a Ha. destruct (Hl a Ha) as [A B]. apply U1; [|exact B].
      exact (recorded_lt _ _ _ _ _ HI A). }
    pose proof (iv_nodup _ _ _ _ HI) as HN. rewrite (with_recorded _ _ _ W) in HN. apply NoDup_cons_iff in HN; destruct HN as [HN1 _].
    assert (Hm : map (get h1) (dq_items dm) = map (get h) (dq_items dm)).
    { apply Hold. intros a Ha. split; [rewrite (with_recorded _ _ _ W); right; apply in_or_app; now left|].
      intros ->. apply HN1. apply in_or_app. now left. }
    assert (Hv : map (get h1) (dq_items dv) = map (get h) (dq_items dv)).
    { apply Hold. intros a Ha. split; [rewrite (with_recorded _ _ _ W); right; apply in_or_app; now right|].
      intros ->. apply HN1. apply in_or_app. now right. }
    assert (Em : get h1 (s_mean (obj h1 o1)) = n_mean c) by (apply (f_equal v_mean) in V1; exact V1).
    assert (Ev : get h1 (s_var (obj h1 o1)) = n_var c) by (apply (f_equal v_var) in V1; exact V1).
    cbn [map fold_left]. rewrite Q3, Q4, !dq_append_max, !map_dq_append, Hm, Hv, Em, Ev.
    assert (Eta : forall (d : dq tensor) x, dq_max d = dq_max (dq_append d x)) by (intros; now rewrite dq_append_max).
    split; do 2 f_equal.
    + rewrite <- (dq_eta (dq_append (Dq (dq_max dm) (map (get h) (dq_items dm))) (n_mean c))) at 2. now rewrite dq_append_max.
    + rewrite <- (dq_eta (dq_append (Dq (dq_max dv) (map (get h) (dq_items dv))) (n_var c))) at 2. now rewrite dq_append_max.
Qed.

(** Running totals, entry by entry. *)
Lemma nth_added t u j : List.length u = List.length t -> j < List.length t ->
  nth j (added t u) (Num NaN) = cell_add (nth j t (Num NaN)) (nth j u (Num NaN)).
Proof.
  intros E H. unfold added.
  rewrite (nth_indep _ (Num NaN) ((fun p => cell_add (fst p) (snd p)) (Num NaN, Num NaN)))
    by (rewrite map_length, combine_length; lia).
  rewrite (map_nth (fun p => cell_add (fst p) (snd p))). rewrite combine_nth by lia. reflexivity.
Qed.
Lemma numbers_nth t j : numbers t -> j < List.length t -> nth j t (Num NaN) = Num (entry t j).
Proof.
  intros Hn Hj. unfold numbers in Hn. rewrite Forall_forall in Hn. unfold entry.
  destruct (Hn (nth j t (Num NaN)) (nth_In _ _ Hj)) as [x ->]. reflexivity.
Qed.
Lemma numbers_added t u : List.length u = List.length t -> numbers t -> numbers u -> numbers (added t u).
Proof.
  intros E Ht Hu. apply Forall_forall. intros c Hin. apply (In_nth _ _ (Num NaN)) in Hin. destruct Hin as (j & Hj & <-).
  rewrite length_added in Hj by exact E. rewrite nth_added by lia.
  rewrite (numbers_nth t), (numbers_nth u) by (auto; lia). cbn. eauto.
Qed.
Lemma entry_added t u j : List.length u = List.length t -> numbers t -> numbers u -> j < List.length t ->
  entry (added t u) j = xadd (entry t j) (entry u j).
Proof.
  intros E Ht Hu Hj. unfold entry at 1. rewrite nth_added by assumption.
  rewrite (numbers_nth t), (numbers_nth u) by (auto; lia). reflexivity.
Qed.
Lemma totals b cs : forall t, List.length t = b -> numbers t -> Forall (content_ok b) cs -> Forall (fun c => numbers (n_ll c)) cs ->
  let t' := fold_left (fun t c => added t (n_ll c)) cs t in
  List.length t' = b /\ numbers t' /\ forall j, j < b -> entry t' j = total (entry t j) (map (fun c => entry (n_ll c) j) cs).
Proof.
  induction cs as [|c cs IH]; intros t Hl Hn Hc Hnum; cbn [fold_left map total].
  - auto.
  - inversion Hc as [|? ? H1 H2]; subst. inversion Hnum as [|? ? H3 H4]; subst. destruct H1 as (_ & _ & H1 & _).
    destruct (IH (added t (n_ll c))) as (A & B & C); auto.
    + now apply length_added.
    + now apply numbers_added.
    + cbn zeta in *. split; [exact A|]. split; [exact B|]. intros j Hj. rewrite C by exact Hj.
      unfold total. cbn [fold_left]. now rewrite entry_added.
Qed.

(** The constructor: total and reports of the initial state. *)
Lemma init_spec b h o rs rm : o < osize h -> obj_batched b h (obj h o) -> NoDup (fields (obj h o)) ->
  valid_setting rs -> valid_setting rm ->
  exists h' r dm ds, init_result h o rs rm = Ok (h', r) /\ Inv b h' r o /\ r_ll r = s_ll (obj h o) /\
    make_dequeue (T := addr) rm = Ok dm /\ make_dequeue (T := addr) rs = Ok ds /\
    size h' = size h /\ h_objs h' = h_objs h /\
    get h' (r_ll r) = added (get h (s_ll (obj h o))) (get h (s_ll (obj h o))) /\
    (forall a, a <> r_ll r -> get h' a = get h a) /\
    with_deques r (dq_append dm (s_mean (obj h o))) (dq_append dm (s_var (obj h o))) /\
    r_states r = dq_append ds o.
Proof.
  intros Ho Hb Hn Hs Hm. destruct (make_dequeue_ok (A := addr) rm Hm) as [dm Em]. destruct (make_dequeue_ok (A := addr) rs Hs) as [ds Es].
  assert (B : batched b h (s_ll (obj h o))) by (apply Hb; cbn; tauto).
  assert (W : with_deques (empty_result h o dm ds) dm dm) by reflexivity.
  destruct (append_spec b h (empty_result h o dm ds) o dm dm W B B) as (r & Ea & Q1 & Q2 & Q3).
  rewrite <- (init_result_eq h o rs rm dm ds Em Es) in Ea. cbn [empty_result r_ll r_states] in *.
  eexists. exists r, dm, ds. split; [exact Ea|]. split; [eapply init_inv; eassumption|].
  split; [exact Q1|]. split; [exact Em|]. split; [exact Es|]. split; [unfold size; apply size_set|]. split; [reflexivity|].
  rewrite Q1. split; [rewrite get_set by apply B; now rewrite Nat.eqb_refl|].
  split; [intros a Ha; rewrite get_set by apply B; destruct (Nat.eqb_spec a (s_ll (obj h o))); [contradiction|reflexivity]|].
  split; [exact Q2|exact Q3].
Qed.
