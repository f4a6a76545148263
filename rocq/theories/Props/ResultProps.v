(** Properties C31-C33 (pyfilter/filters/result.py: accumulating, continuing, resampling). *)
From Coq Require Import Reals List Bool Arith ZArith String Lia Lra.
From Verif.Spec Require Import ContainerSpec.
From Verif.Proofs Require Import ContainerProofs.
From Verif.Model Require Import Base Xf Container Result.
From Verif.Spec Require Import WeightsSpec ResultSpec.
From Verif.Proofs Require Import ResultProofs ResultReach ResultRun.
Import ListNotations.
Local Open Scope list_scope.
Local Open Scope nat_scope.

Lemma make_dequeue_window {A} m : valid_setting m -> make_dequeue (T := A) m = Ok (Dq (window m) []).
Proof. destruct m as [|[]|z]; cbn; intros H; try reflexivity. destruct (Z.ltb_spec z 0); [lia|reflexivity]. Qed.

Lemma fold_append_newest {A} (d : dq A) hist xs : dq_items d = newest (dq_max d) hist ->
  dq_items (fold_left dq_append xs d) = newest (dq_max d) (hist ++ xs).
Proof. intros H. pose proof (dq_extend_newest d hist xs H) as E. unfold dq_extend in E. now rewrite E. Qed.

Lemma recorded_newest h h' (dm dm' : dq addr) a t rm (ts : list tensor) :
  make_dequeue (T := addr) rm = Ok dm -> valid_setting rm -> get h a = t ->
  map (get h') (dq_items dm') = dq_items (fold_left dq_append ts (Dq (dq_max (dq_append dm a)) (map (get h) (dq_items (dq_append dm a))))) ->
  map (get h') (dq_items dm') = newest (window rm) (t :: ts).
Proof.
  intros E Hv Ht ->. rewrite (make_dequeue_window rm Hv) in E. injection E as <-.
  rewrite (fold_append_newest _ [t]).
  - rewrite dq_append_max. reflexivity.
  - cbn [dq_items dq_max]. rewrite dq_append_max. cbn [dq_max]. unfold dq_append. cbn [dq_max dq_items app List.length].
    destruct (window rm) as [[|k]|]; cbn; now rewrite ?Ht.
Qed.

Lemma rep_moment_means h r dm dv : with_deques r dm dv -> rep_moment h r "filter_means" = map (get h) (dq_items dm).
Proof. intros W. unfold rep_moment, getitem. rewrite W. reflexivity. Qed.
Lemma rep_moment_vars h r dm dv : with_deques r dm dv -> rep_moment h r "filter_variances" = map (get h) (dq_items dv).
Proof. intros W. unfold rep_moment, getitem. rewrite W. reflexivity. Qed.

(** * C31 *)

(** A run from a filter's own initial state: whatever is recorded, the reported total is the sum of the increments,
    and the recorded moments are the newest ones. *)
Theorem C31_total_is_sum : forall b h time x w inds mean var rs rm cs,
  List.length x = b -> List.length w = b -> List.length inds = b -> List.length mean = b -> List.length var = b ->
  valid_setting rs -> valid_setting rm ->
  Forall (content_ok b) cs -> Forall (fun c => numbers (n_ll c)) cs ->
  exists h1 o h2 r h3 r3 o3,
    fresh_state h time x w (repeat (Num (Fin 0)) b) inds mean var = (h1, o) /\
    init_result h1 o rs rm = Ok (h2, r) /\
    steps h2 r o cs = Ok (h3, r3, o3) /\
    List.length (rep_ll h3 r3) = b /\
    (forall j, j < b -> entry (rep_ll h3 r3) j = total (Fin 0) (map (fun c => entry (n_ll c) j) cs)) /\
    rep_moment h3 r3 "filter_means" = newest (window rm) (mean :: map n_mean cs) /\
    rep_moment h3 r3 "filter_variances" = newest (window rm) (var :: map n_var cs).
Proof.
  intros b h time x w inds mean var rs rm cs L1 L2 L4 L5 L6 Hs Hm Hc Hn.
  destruct (fresh_state h time x w (repeat (Num (Fin 0)) b) inds mean var) as [h1 o] eqn:Ef.
  destruct (fresh_state_spec b _ _ _ _ _ _ _ _ _ _ L1 L2 (repeat_length _ _) L4 L5 L6 Ef) as (G & Eo & Os & _ & B & _ & N & V).
  destruct (init_spec b h1 o rs rm ltac:(lia) B N Hs Hm) as (h2 & r & dm & ds & Ei & I & Rl & Em & Es & S2 & O2 & T2 & U2 & W & St).
  destruct (steps_spec b cs h2 r o I Hc) as (h3 & r3 & o3 & E3 & I3 & L3 & S3 & O3 & G3 & U3 & K3 & Z3 & V3 & W3 & T3).
  exists h1, o, h2, r, h3, r3, o3. split; [reflexivity|]. split; [exact Ei|]. split; [exact E3|].
  assert (E0 : get h1 (s_ll (obj h1 o)) = repeat (Num (Fin 0)) b) by exact (f_equal v_ll V).
  assert (N0 : numbers (repeat (Num (Fin 0)) b)).
  { apply Forall_forall. intros c Hin. apply repeat_spec in Hin. subst. eauto. }
  assert (Et : get h2 (r_ll r) = repeat (Num (Fin 0)) b).
  { rewrite T2, E0. apply (nth_ext _ _ (Num NaN) (Num NaN)).
    - now rewrite length_added.
    - intros j Hj. rewrite length_added in Hj by reflexivity. rewrite nth_added by (auto; lia).
      rewrite repeat_length in Hj.
      assert (Ej : nth j (repeat (Num (Fin 0)) b) (Num NaN) = Num (Fin 0)).
      { apply (repeat_spec b). apply nth_In. now rewrite repeat_length. }
      rewrite Ej. cbn. now rewrite Rplus_0_l. }
  rewrite Et in G3. destruct (totals b cs (repeat (Num (Fin 0)) b) (repeat_length _ _) N0 Hc Hn) as (A1 & A2 & A3).
  unfold rep_ll. rewrite L3, G3. split; [exact A1|]. split.
  { intros j Hj. rewrite A3 by exact Hj. f_equal. unfold entry.
    assert (Ej : nth j (repeat (Num (Fin 0)) b) (Num NaN) = Num (Fin 0)).
    { apply (repeat_spec b). apply nth_In. now rewrite repeat_length. }
    now rewrite Ej. }
  destruct (W3 _ _ W) as (dm' & dv' & W' & _ & _ & Q1 & Q2).
  rewrite (rep_moment_means _ _ _ _ W'), (rep_moment_vars _ _ _ _ W').
  assert (Hmean : get h2 (s_mean (obj h1 o)) = mean).
  { rewrite U2; [exact (f_equal v_mean V)|]. rewrite Rl. intros Ec. unfold fields in N. rewrite Ec in N.
    repeat match goal with H : NoDup (_ :: _) |- _ => inversion H; clear H; subst end. cbn [In] in *. intuition. }
  assert (Hvar : get h2 (s_var (obj h1 o)) = var).
  { rewrite U2; [exact (f_equal v_var V)|]. rewrite Rl. intros Ec. unfold fields in N. rewrite Ec in N.
    repeat match goal with H : NoDup (_ :: _) |- _ => inversion H; clear H; subst end. cbn [In] in *. intuition. }
  split; eapply recorded_newest; eassumption.
Qed.
Print Assumptions C31_total_is_sum.

(** With finite increments the total is their sum as real numbers. *)
Theorem C31_real_sum : forall (l : list R), total (Fin 0) (map Fin l) = Fin (Rsum l).
Proof.
  assert (H : forall l a, total (Fin a) (map Fin l) = Fin (a + Rsum l)).
  { unfold total. induction l as [|x l IH]; intros a; cbn [map fold_left].
    - cbn. now rewrite Rplus_0_r.
    - cbn [xadd]. rewrite IH. f_equal. change (Rsum (x :: l)) with (x + Rsum l)%R. ring. }
  intros l. rewrite H. f_equal. ring.
Qed.
Print Assumptions C31_real_sum.

(** The state after a run holds the contents of the last step (and, where shared, earlier weights and ancestors). *)
Theorem C31_latest_state : forall b h r o cs, reachable b h r o -> Forall (content_ok b) cs ->
  exists h' r' o', steps h r o cs = Ok (h', r', o') /\ view h' o' = fold_left follows cs (view h o) /\
    (forall m, dq_max (r_states r) = Some (S m) \/ dq_max (r_states r) = None -> cs <> [] -> latest r' = Ok o').
Proof.
  intros b h r o cs HR Hc. apply reachable_inv in HR.
  destruct (steps_spec b cs h r o HR Hc) as (h3 & r3 & o3 & E3 & I3 & L3 & S3 & O3 & G3 & U3 & K3 & Z3 & V3 & W3 & T3).
  exists h3, r3, o3. split; [exact E3|]. split; [exact V3|].
  intros m Hm Hne. destruct (exists_last Hne) as (cs' & c & ->).
  apply Forall_app in Hc. destruct Hc as [Hc1 Hc2]. inversion Hc2 as [|? ? Hc3 _]; subst.
  destruct (steps_spec b cs' h r o HR Hc1) as (h4 & r4 & o4 & E4 & I4 & L4 & S4 & O4 & G4 & U4 & K4 & Z4 & V4 & W4 & T4).
  destruct (step_spec b h4 r4 o4 c I4 Hc3) as (h5 & r5 & o5 & E5 & I5 & L5 & _ & _ & _ & _ & _ & _ & _ & _ & _ & _ & _ & _ & _ & T5).
  assert (Es : steps h r o (cs' ++ [c]) = Ok (h5, r5, o5)).
  { unfold steps in *. clear -E4 E5.
    assert (H : forall l s s', foldM (fun s c => let '(h, r, o) := s in step h r o c) l s = Ok s' ->
              foldM (fun s c => let '(h, r, o) := s in step h r o c) (l ++ [c]) s
              = (let '(h, r, o) := s' in step h r o c)).
    { induction l as [|x l IH]; intros s s' E; cbn [foldM app] in *.
      - injection E as ->. destruct s' as [[a b] d]. now destruct (step a b d c).
      - destruct (let '(h, r, o) := s in step h r o x) as [s1|]; [|discriminate]. cbn [bind] in *. now apply IH. }
    rewrite (H _ _ _ E4). exact E5. }
  rewrite E3 in Es. injection Es as -> -> ->. unfold latest. rewrite T5.
  assert (El : exists l, dq_items (dq_append (r_states r4) o5) = l ++ [o5]).
  { unfold dq_append. rewrite T4. destruct Hm as [Hm|Hm]; rewrite Hm; [|eexists; reflexivity].
    destruct (_ <=? S m) eqn:El; cbn [dq_items]; [eexists; reflexivity|].
    destruct (dq_items (r_states r4)) as [|y l]; [exfalso; apply Nat.leb_gt in El; cbn in El; lia|].
    cbn. eexists; reflexivity. }
  destruct El as [l ->]. rewrite rev_app_distr. reflexivity.
Qed.
Print Assumptions C31_latest_state.

(** A run of two filters, three steps, recording only two moments. *)
Definition col2 (a c : R) : tensor := [Arr [Fin a]; Arr [Fin c]].
Definition num2 (a c : R) : tensor := [Num (Fin a); Num (Fin c)].
Definition idx2 (i j : nat) : tensor := [Idx [i]; Idx [j]].
Definition sample_content (l0 l1 : R) : content :=
  Content 1 (col2 1 2) Shared (num2 l0 l1) (New (idx2 0 0)) (col2 1 2) (col2 0 0).
Example C31_nonvacuous :
  Forall (content_ok 2) [sample_content 1 2; sample_content 3 4] /\
  Forall (fun c => numbers (n_ll c)) [sample_content 1 2; sample_content 3 4] /\
  total (Fin 0) (map (fun c => entry (n_ll c) 1) [sample_content 1 2; sample_content 3 4]) = Fin 6.
Proof.
  split; [|split].
  - apply Forall_forall. intros c [<-|[<-|[]]]; (do 5 (split; [reflexivity || exact I|])); reflexivity.
  - apply Forall_forall. intros c [<-|[<-|[]]]; repeat constructor; eauto.
  - unfold total. cbn. f_equal. lra.
Qed.

(** * C32 *)

(** What continuing from a given state really does: its log-likelihood is counted twice, and the state's own
    log-likelihood tensor becomes the running total; the rest of the state is kept. *)
Theorem C32_continue_partial : forall b h o rs rm cs,
  o < List.length (h_objs h) -> (forall a, In a (fields (obj h o)) -> batched b h a) -> NoDup (fields (obj h o)) ->
  numbers (v_ll (view h o)) ->
  valid_setting rs -> valid_setting rm -> Forall (content_ok b) cs -> Forall (fun c => numbers (n_ll c)) cs ->
  exists h2 r h3 r3 o3,
    init_result h o rs rm = Ok (h2, r) /\ steps h2 r o cs = Ok (h3, r3, o3) /\
    (forall j, j < b -> entry (rep_ll h3 r3) j
       = total (xadd (entry (v_ll (view h o)) j) (entry (v_ll (view h o)) j)) (map (fun c => entry (n_ll c) j) cs)) /\
    v_ll (view h3 o) = rep_ll h3 r3 /\
    v_time (view h3 o) = v_time (view h o) /\ v_x (view h3 o) = v_x (view h o) /\ v_w (view h3 o) = v_w (view h o) /\
    v_inds (view h3 o) = v_inds (view h o) /\ v_mean (view h3 o) = v_mean (view h o) /\
    v_var (view h3 o) = v_var (view h o).
Proof.
  intros b h o rs rm cs Ho B N Hll Hs Hm Hc Hn.
  destruct (init_spec b h o rs rm Ho B N Hs Hm) as (h2 & r & dm & ds & Ei & I & Rl & Em & Es & S2 & O2 & T2 & U2 & W & St).
  destruct (steps_spec b cs h2 r o I Hc) as (h3 & r3 & o3 & E3 & I3 & L3 & S3 & O3 & G3 & U3 & K3 & Z3 & V3 & W3 & T3).
  exists h2, r, h3, r3, o3. split; [exact Ei|]. split; [exact E3|].
  assert (Lb : List.length (get h (s_ll (obj h o))) = b) by (apply B; cbn; tauto).
  destruct (totals b cs (get h2 (r_ll r))) as (A1 & A2 & A3); auto.
  { rewrite T2. rewrite length_added by reflexivity. exact Lb. }
  { rewrite T2. apply numbers_added; auto. }
  split.
  { intros j Hj. unfold rep_ll. rewrite L3, G3, A3 by exact Hj. f_equal. rewrite T2. apply entry_added; [reflexivity|exact Hll|exact Hll|]. unfold view. cbn [v_ll]. rewrite Lb. exact Hj. }
  assert (Ko : obj h3 o = obj h o).
  { rewrite K3; [unfold obj; now rewrite O2|]. unfold osize. rewrite O2. exact Ho. }
  unfold view. rewrite Ko. cbn [v_time v_x v_w v_ll v_inds v_mean v_var].
  assert (Hg : forall a, In a (fields (obj h o)) -> a <> r_ll r -> get h3 a = get h a).
  { intros a Ha Hne. rewrite U3; [now apply U2| |exact Hne]. rewrite S2. apply B, Ha. }
  rewrite Rl in Hg. unfold fields in Hg, N.
  split; [unfold rep_ll; now rewrite L3, Rl|]. split; [reflexivity|].
  repeat match goal with H : NoDup (_ :: _) |- _ => inversion H; clear H; subst end. cbn [In] in *.
  repeat match goal with |- _ /\ _ => split end; apply Hg; try tauto; intuition congruence.
Qed.
Print Assumptions C32_continue_partial.

Definition five_state : heap * addr :=
  fresh_state (Heap [] []) 3 [Arr [Fin 1]] [Arr [Fin 0]] [Num (Fin 5)] [Idx [0]] [Arr [Fin 1]] [Arr [Fin 0]].

(** The claim itself fails: a state with log-likelihood 5 gives a run that starts at 10, and the state then reports
    10 itself. *)
Theorem C32_continue_refuted : exists h o h2 r,
  v_ll (view h o) = [Num (Fin 5)] /\ init_result h o (MLBool false) (MLBool true) = Ok (h2, r) /\
  rep_ll h2 r = [Num (Fin 10)] /\ v_ll (view h2 o) = [Num (Fin 10)].
Proof.
  exists (fst five_state), (snd five_state). eexists. eexists. split; [reflexivity|]. split; [reflexivity|].
  cbv -[Rplus IZR]. replace (5 + 5)%R with 10%R by lra. now split.
Qed.
Print Assumptions C32_continue_refuted.

Example C32_nonvacuous : exists h o, o < List.length (h_objs h) /\
  (forall a, In a (fields (obj h o)) -> batched 2 h a) /\ NoDup (fields (obj h o)) /\ v_ll (view h o) = num2 5 7.
Proof.
  destruct (fresh_state (Heap [] []) 0 (col2 0 1) (col2 0 0) (num2 5 7) (idx2 0 0) (col2 0 1) (col2 0 0)) as [h o] eqn:E.
  destruct (fresh_state_spec 2 (Heap [] []) 0 (col2 0 1) (col2 0 0) (num2 5 7) (idx2 0 0) (col2 0 1) (col2 0 0) h o
    eq_refl eq_refl eq_refl eq_refl eq_refl eq_refl E) as (_ & Eo & Os & _ & B & _ & N & V).
  exists h, o. split; [unfold osize in *; lia|]. split; [exact B|]. split; [exact N|]. exact (f_equal v_ll V).
Qed.

(** * C33 *)

Lemma Forall2_map_in {A B} (P : B -> B -> Prop) (f g : A -> B) l : (forall a, In a l -> P (f a) (g a)) ->
  Forall2 P (map f l) (map g l).
Proof. intros H. induction l as [|x l IH]; cbn; constructor; [apply H; now left|]. apply IH. intros a Ha. apply H. now right. Qed.

(** True of every reachable result: total, recorded moments (if the history is resampled), and every state's time,
    particles, weights and ancestors.  A state's own moments are selected once if they are not recorded, twice if they
    are; its own log-likelihood is not selected. *)
Theorem C33_resample_partial : forall b h r o idx hist, reachable b h r o -> valid_indices b idx ->
  exists h', resample h r idx hist = Ok h' /\
    selects idx (rep_ll h r) (rep_ll h' r) /\
    (forall name, name = "filter_means"%string \/ name = "filter_variances"%string ->
       if hist then Forall2 (selects idx) (rep_moment h r name) (rep_moment h' r name)
       else rep_moment h' r name = rep_moment h r name) /\
    (forall k, In k (dq_items (r_states r)) ->
       v_time (view h' k) = v_time (view h k) /\
       selects idx (v_x (view h k)) (v_x (view h' k)) /\
       selects idx (v_w (view h k)) (v_w (view h' k)) /\
       selects idx (v_inds (view h k)) (v_inds (view h' k)) /\
       (if (hist && if in_dec Nat.eq_dec (s_mean (obj h k)) (moments r) then true else false)%bool
        then exists t, selects idx (v_mean (view h k)) t /\ selects idx t (v_mean (view h' k))
        else selects idx (v_mean (view h k)) (v_mean (view h' k))) /\
       (if (hist && if in_dec Nat.eq_dec (s_var (obj h k)) (moments r) then true else false)%bool
        then exists t, selects idx (v_var (view h k)) t /\ selects idx t (v_var (view h' k))
        else selects idx (v_var (view h k)) (v_var (view h' k))) /\
       (if s_ll (obj h k) =? r_ll r then selects idx (v_ll (view h k)) (v_ll (view h' k))
        else v_ll (view h' k) = v_ll (view h k))).
Proof.
  intros b h r o idx hist HR Hi. apply reachable_inv in HR. rename HR into HI.
  destruct (resample_spec b h r o idx hist HI Hi) as (h' & E & S & O & T & U & K & R).
  exists h'. split; [exact E|].
  assert (Hrec : forall a, In a (recorded r) -> a < size h /\ List.length (get h a) = b) by (intros a Ha; exact (iv_rec _ _ _ _ HI a Ha)).
  assert (Hmo : forall a, In a (moments r) -> In a (recorded r)) by (intros a Ha; now right).
  pose proof (iv_nodup _ _ _ _ HI) as HN. unfold recorded in HN. apply NoDup_cons_iff in HN. destruct HN as [HN _].
  split.
  { unfold rep_ll. destruct (Hrec (r_ll r) (or_introl eq_refl)) as [A B].
    rewrite T; [now apply (sel_selects b)|exact A|now left]. }
  split.
  { destruct (iv_two _ _ _ _ HI) as (dm & dv & W). pose proof (moments_split r ltac:(now exists dm, dv)) as Ems.
    rewrite (with_means _ _ _ W), (with_vars _ _ _ W) in Ems.
    assert (Hpart : forall l, (forall a, In a l -> In a (moments r)) ->
      if hist then Forall2 (selects idx) (map (get h) l) (map (get h') l) else map (get h') l = map (get h) l).
    { intros l Hl. destruct hist.
      - apply Forall2_map_in. intros a Ha. destruct (Hrec a (Hmo a (Hl a Ha))) as [A B].
        rewrite T; [now apply (sel_selects b)|exact A|]. right. split; [reflexivity|auto].
      - apply map_ext_in. intros a Ha. destruct (Hrec a (Hmo a (Hl a Ha))) as [A B]. apply U; [exact A|].
        intros [->|[H _]]; [|discriminate]. apply HN. auto. }
    intros name [->| ->].
    - rewrite !(rep_moment_means _ _ _ _ W). apply Hpart. intros a Ha. rewrite Ems. apply in_or_app. now left.
    - rewrite !(rep_moment_vars _ _ _ _ W). apply Hpart. intros a Ha. rewrite Ems. apply in_or_app. now right. }
  intros k Hk. destruct (R k Hk) as (hm & S1 & O1 & Rk & Gm & Ta & Ua).
  destruct (iv_objs _ _ _ _ HI k (or_intror Hk)) as [_ Bk]. pose proof (iv_apart _ _ _ _ HI k (or_intror Hk)) as Ak.
  assert (Ob : obj hm k = obj h k) by (unfold obj; now rewrite O1).
  destruct Rk as [R1 R2 R3 R4 R5 R6 R7 R8 R9]. rewrite Ob in *.
  assert (Hb : forall a, In a (fields (obj h k)) -> a < size h /\ List.length (get h a) = b) by (intros a Ha; exact (Bk a Ha)).
  assert (Hnt : forall a, ~ In a (recorded r) -> ~ (a = r_ll r \/ hist = true /\ In a (moments r))).
  { intros a Hn [->|[_ H]]; apply Hn; [now left|now right]. }
  unfold view. cbn [v_time v_x v_w v_inds v_mean v_var v_ll].
  split; [exact R1|].
  split; [rewrite R5, Ua by (apply Hnt, (ap_x _ _ Ak)); apply (sel_selects b); [exact Hi|apply Hb; cbn; tauto]|].
  split; [rewrite R6, Ua by (apply Hnt, (ap_w _ _ Ak)); apply (sel_selects b); [exact Hi|apply Hb; cbn; tauto]|].
  split; [rewrite R7, Ua by (apply Hnt, (ap_inds _ _ Ak)); apply (sel_selects b); [exact Hi|apply Hb; cbn; tauto]|].
  assert (Hmv : forall a, In a (fields (obj h k)) -> a <> r_ll r ->
     if (hist && if in_dec Nat.eq_dec a (moments r) then true else false)%bool
     then exists t, selects idx (get h a) t /\ selects idx t (sel idx (get hm a))
     else selects idx (get h a) (sel idx (get hm a))).
  { intros a Ha Hne. destruct (Hb a Ha) as [A B]. destruct hist; cbn [andb].
    - destruct (in_dec Nat.eq_dec a (moments r)) as [Hin|Hin].
      + rewrite Ta; [|right; auto|exact A]. exists (sel idx (get h a)). split; [now apply (sel_selects b)|].
        apply (sel_selects b); [exact Hi|]. rewrite length_sel. apply Hi.
      + rewrite Ua; [now apply (sel_selects b)|]. intros [H|[_ H]]; contradiction.
    - rewrite Ua; [now apply (sel_selects b)|]. intros [H|[H _]]; [contradiction|discriminate]. }
  split; [rewrite R8; apply Hmv; [cbn; tauto|apply (ap_mean _ _ Ak)]|].
  split; [rewrite R9; apply Hmv; [cbn; tauto|apply (ap_var _ _ Ak)]|].
  destruct (Hb (s_ll (obj h k)) ltac:(cbn; tauto)) as [A B]. rewrite R2.
  destruct (Nat.eqb_spec (s_ll (obj h k)) (r_ll r)) as [Ell|Ell].
  - rewrite T; [|exact A|now left]. now apply (sel_selects b).
  - apply U; [exact A|]. intros [H|[_ H]]; [contradiction|]. apply (ap_ll _ _ Ak). exact H.
Qed.
Print Assumptions C33_resample_partial.

(** Two filters, one step, then the filters are swapped: the total and the recorded mean are swapped, but the latest
    state still reports its unswapped mean and log-likelihood. *)
Definition swap_content (l0 l1 m0 m1 : R) : content :=
  Content 1 (col2 m0 m1) Shared (num2 l0 l1) (New (idx2 0 0)) (col2 m0 m1) (col2 0 0).
Definition swap_run (l0 l1 m0 m1 : R) : res (heap * result * addr) :=
  let (h, o) := fresh_state (Heap [] []) 0 (col2 0 1) (col2 0 0) (num2 0 0) (idx2 0 0) (col2 0 1) (col2 0 0) in
  let! (h, r) := init_result h o (MLBool false) (MLBool true) in
  steps h r o [swap_content l0 l1 m0 m1].

Lemma swap_reachable l0 l1 m0 m1 h r o : swap_run l0 l1 m0 m1 = Ok (h, r, o) -> reachable 2 h r o.
Proof.
  unfold swap_run. destruct (fresh_state _ _ _ _ _ _ _ _) as [h0 o0] eqn:Ef.
  destruct (init_result h0 o0 _ _) as [[h1 r1]|] eqn:Ei; [|discriminate]. cbn [bind]. unfold steps. cbn [foldM].
  intros E. eapply reach_op with (e := RStep (swap_content l0 l1 m0 m1)).
  - eapply reach_init; [..|exact Ef|exact Ei]; reflexivity.
  - cbn [rop_ok]. do 5 (split; [reflexivity || exact I|]). reflexivity.
  - cbn [do_op]. destruct (step h1 r1 o0 (swap_content l0 l1 m0 m1)) as [s|]; [exact E|discriminate].
Qed.

Lemma swap_reports l0 l1 m0 m1 : exists h r o h',
  swap_run l0 l1 m0 m1 = Ok (h, r, o) /\ resample h r [1; 0] true = Ok h' /\
  rep_ll h r = [Num (Fin (0 + 0 + l0)); Num (Fin (0 + 0 + l1))] /\
  rep_ll h' r = [Num (Fin (0 + 0 + l1)); Num (Fin (0 + 0 + l0))] /\
  List.last (rep_moment h r "filter_means") [] = col2 m0 m1 /\ List.last (rep_moment h' r "filter_means") [] = col2 m1 m0 /\
  latest r = Ok o /\
  v_mean (view h o) = col2 m0 m1 /\ v_mean (view h' o) = col2 m0 m1 /\
  v_ll (view h o) = num2 l0 l1 /\ v_ll (view h' o) = num2 l0 l1.
Proof.
  destruct (swap_run l0 l1 m0 m1) as [[[h r] o]|] eqn:E; [|discriminate E].
  destruct (resample h r [1; 0] true) as [h'|] eqn:E';
    [|exfalso; cbv -[Rplus IZR] in E; injection E as <- <- <-; cbv -[Rplus IZR] in E'; discriminate].
  exists h, r, o, h'. split; [reflexivity|]. split; [exact E'|].
  cbv -[Rplus IZR] in E. injection E as <- <- <-. cbv -[Rplus IZR] in E'. injection E' as <-.
  cbv -[Rplus IZR]. do 8 (split; [reflexivity|]). reflexivity.
Qed.

Theorem C33_resample_refuted : exists h r o h',
  reachable 2 h r o /\ resample h r [1; 0] true = Ok h' /\
  rep_ll h r = num2 3 4 /\ rep_ll h' r = num2 4 3 /\
  List.last (rep_moment h r "filter_means") [] = col2 1 2 /\ List.last (rep_moment h' r "filter_means") [] = col2 2 1 /\
  latest r = Ok o /\
  v_mean (view h o) = col2 1 2 /\ v_mean (view h' o) = col2 1 2 /\ ~ selects [1; 0] (v_mean (view h o)) (v_mean (view h' o)) /\
  v_ll (view h o) = num2 3 4 /\ v_ll (view h' o) = num2 3 4 /\ ~ selects [1; 0] (v_ll (view h o)) (v_ll (view h' o)).
Proof.
  destruct (swap_reports 3 4 1 2) as (h & r & o & h' & E & E' & R1 & R2 & R3 & R4 & R5 & R6 & R7 & R8 & R9).
  exists h, r, o, h'. split; [exact (swap_reachable _ _ _ _ h r o E)|]. split; [exact E'|].
  split; [rewrite R1; unfold num2; repeat f_equal; lra|]. split; [rewrite R2; unfold num2; repeat f_equal; lra|].
  split; [exact R3|]. split; [exact R4|]. split; [exact R5|]. split; [exact R6|]. split; [exact R7|].
  split.
  { rewrite R6, R7. intros [_ H]. specialize (H 0 ltac:(cbn; lia)). unfold col2 in H. cbn [nth nth_error] in H. injection H. lra. }
  split; [exact R8|]. split; [exact R9|].
  rewrite R8, R9. intros [_ H]. specialize (H 0 ltac:(cbn; lia)). unfold num2 in H. cbn [nth nth_error] in H. injection H. lra.
Qed.
Print Assumptions C33_resample_refuted.

Example C33_nonvacuous : exists h r o, reachable 2 h r o /\ valid_indices 2 [1; 1] /\ rep_ll h r = num2 3 4.
Proof.
  destruct (swap_reports 3 4 1 2) as (h & r & o & h' & E & E' & R1 & _).
  exists h, r, o. split; [exact (swap_reachable _ _ _ _ h r o E)|]. split; [split; [reflexivity|repeat constructor]|].
  rewrite R1. unfold num2. repeat f_equal; lra.
Qed.
