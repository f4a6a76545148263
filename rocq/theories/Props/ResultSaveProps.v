(** Properties C35 and C36 (pyfilter/filters/result.py: state_dict, load_state_dict). *)
From Coq Require Import Reals List Bool Arith ZArith String Lia Lra.
From Verif.Spec Require ContainerSpec.
From Verif.Model Require Import Base Xf Container Result.
From Verif.Spec Require Import ResultSpec.
From Verif.Proofs Require Import ResultProofs ResultReach ResultRun ResultExchange ResultSave.
From Verif.Props Require Import ResultProps ResultExchangeProps.
Import ListNotations.
Local Open Scope list_scope.
Local Open Scope nat_scope.

Lemma one_shape_same h l : one_shape (map (get h) l) -> same_shapes (shape_at h) l = true.
Proof.
  intros H. destruct l as [|a l]; [reflexivity|]. cbn [same_shapes]. apply forallb_forall. intros c Hc.
  destruct (list_eq_dec Nat.eq_dec (shape_at h a) (shape_at h c)) as [|n]; [reflexivity|]. exfalso. apply n.
  unfold shape_at. apply H; apply in_map_iff; [exists a|exists c]; split; auto; [now left|now right].
Qed.

Lemma untouched_reports b h h' r o : Inv b h r o -> untouched h h' r o -> same_reports h h' r o.
Proof.
  intros HI [U1 U2 U3 U4]. destruct (iv_two _ _ _ _ HI) as (dm & dv & W).
  assert (Hr : forall a, In a (recorded r) -> get h' a = get h a) by (intros a Ha; apply U3; apply in_footprint; now left).
  rewrite (with_recorded _ _ _ W) in Hr.
  assert (Hv : forall k, In k (objects r o) -> view h' k = view h k).
  { intros k Hk. unfold view. rewrite U4 by exact Hk.
    assert (Hf : forall a, In a (fields (obj h k)) -> get h' a = get h a) by (intros a Ha; apply U3, in_footprint; right; now exists k).
    f_equal; apply Hf; cbn; tauto. }
  split; [apply Hr; now left|]. split; [|split; [|apply Hv; now left]].
  - intros name [<-|[<-|[]]].
    + rewrite !(rep_moment_means _ _ _ _ W). apply map_ext_in. intros a Ha. apply Hr. right. apply in_or_app. now left.
    + rewrite !(rep_moment_vars _ _ _ _ W). apply map_ext_in. intros a Ha. apply Hr. right. apply in_or_app. now right.
  - apply map_ext_in. intros k Hk. apply Hv. now right.
Qed.

(** Saving, optionally writing to disk and reading back, and loading into another result. *)
Definition transfer (h : heap) (r r0 : result) (disk : bool) : res (heap * saved * result) :=
  let! (h, d) := res_state_dict h r in
  let (h, d) := if disk then serialise h d else (h, d) in
  let! (h, r', d') := res_load h r0 d in
  Ok (h, d, r').

Lemma transfer_spec b h r o k r0 o0 disk :
  reachable b h r o -> latest r = Ok k -> (forall name, In name moment_names -> one_shape (rep_moment h r name)) ->
  reachable b h r0 o0 -> dq_items (r_states r0) = [o0] ->
  map cell_size (v_x (view h o0)) = map cell_size (v_x (view h k)) ->
  exists h' d r' dm dv lm lv, transfer h r r0 disk = Ok (h', d, r') /\
    with_deques r dm dv /\ with_deques r' (Dq (dq_max dm) lm) (Dq (dq_max dv) lv) /\
    map (get h') lm = map (get h) (dq_items dm) /\ map (get h') lv = map (get h) (dq_items dv) /\
    get h' (r_ll r') = get h (r_ll r) /\ view h' o0 = view h k /\ r_states r' = r_states r0 /\ Inv b h' r' o0 /\
    grows h h' /\ (forall j, j <> o0 -> obj h' j = obj h j) /\ osize h' = osize h /\
    r_ll r' = d_ll d /\ obj h' o0 = d_obj (d_state d) /\
    d_tt d = [(deque_key (dq_max dm) "filter_means", lm); (deque_key (dq_max dv) "filter_variances", lv)] /\
    (forall a, In a (lm ++ lv) -> size h <= a) /\
    (if disk then forall a, In a (d_addrs d lm lv) -> size h <= a else r_ll r' = r_ll r /\ d_obj (d_state d) = obj h k).
Proof.
  intros HR Hk Hsh HR0 Hs0 Hx. pose proof (reachable_inv _ _ _ _ HR) as HI. pose proof (reachable_inv _ _ _ _ HR0) as HI0.
  destruct (iv_two _ _ _ _ HI) as (dm & dv & W). destruct (iv_two _ _ _ _ HI0) as (dm0 & dv0 & W0).
  destruct (reachable_full _ _ _ _ HR dm dv W) as [F1 F2].
  pose proof (Hsh "filter_means"%string ltac:(cbn; tauto)) as Sm. pose proof (Hsh "filter_variances"%string ltac:(cbn; tauto)) as Sv.
  rewrite (rep_moment_means _ _ _ _ W) in Sm. rewrite (rep_moment_vars _ _ _ _ W) in Sv.
  destruct (save_spec b h r o k dm dv HI W F1 F2 (one_shape_same _ _ Sm) (one_shape_same _ _ Sv) Hk)
    as (h1 & d & lm & lv & E1 & G1 & Gr1 & O1 & Eo & El & M1 & V1 & B1).
  pose proof (grows_size _ _ Gr1) as Z1.
  assert (Ll : List.length lm = List.length (dq_items dm)) by (rewrite <- (map_length (get h1)), M1; apply map_length).
  assert (Lv : List.length lv = List.length (dq_items dv)) by (rewrite <- (map_length (get h1)), V1; apply map_length).
  destruct (iv_objs _ _ _ _ HI0 o0 (or_introl eq_refl)) as [Ho0 Bo0].
  destruct (iv_objs _ _ _ _ HI k (or_intror (latest_in _ _ Hk))) as [Hko Bk].
  assert (Hll : r_ll r < size h) by (apply (recorded_lt _ _ _ _ _ HI); now left).
  assert (Hgk : forall a, In a (fields (obj h k)) -> get h1 a = get h a) by (intros a Ha; apply (grows_get _ _ _ Gr1); now apply Bk).
  unfold transfer. rewrite E1. cbn [bind]. destruct disk.
  - destruct (serialise_spec b h1 d _ _ lm lv G1) as (h2 & d2 & lm2 & lv2 & E2 & G2 & Gr2 & O2 & Lm2 & Lv2 & M2 & V2 & T2 & S2 & B2).
    pose proof (grows_trans _ _ _ Gr1 Gr2) as Gr. rewrite E2.
    cbv zeta in S2. rewrite Eo in S2. destruct S2 as (P0 & P1 & P2 & P3 & P4 & P5 & P6).
    destruct (load_spec b h2 r0 o0 d2 _ _ lm2 lv2 dm0 dv0 G2 W0 Hs0) as (h3 & r3 & d3 & E3 & Q1 & Q2 & Q3 & Q4 & Q5 & Q6 & Q7 & Q8 & _).
    { unfold osize in *. rewrite O2, O1. exact Ho0. }
    { apply full_length; [exact F1|congruence]. }
    { apply full_length; [exact F2|congruence]. }
    { assert (Ob : obj h2 o0 = obj h o0) by (unfold obj; now rewrite O2, O1). rewrite Ob. unfold shape_at. rewrite P1.
      rewrite (grows_get _ _ _ Gr) by (apply Bo0; cbn; tauto). rewrite Hgk by (cbn; tauto). exact Hx. }
    rewrite E3. cbn [bind]. exists h3, d2, r3, dm, dv, lm2, lv2.
    assert (Hg : forall a, get h3 a = get h2 a) by (intros a; unfold get; now rewrite Q1).
    assert (Hgm : forall l, map (get h3) l = map (get h2) l) by (intros l; apply map_ext; exact Hg).
    split; [reflexivity|]. split; [exact W|]. split; [exact Q6|].
    split; [now rewrite Hgm, M2|]. split; [now rewrite Hgm, V2|].
    split; [rewrite Q5, Hg, T2, El; now apply (grows_get _ _ _ Gr1)|].
    split. { unfold view. rewrite Q4, P0, !Hg, P1, P2, P3, P4, P5, P6. rewrite !Hgk by (cbn; tauto). reflexivity. }
    split; [exact Q7|]. split; [exact Q8|].
    split; [destruct Gr as [l Gr]; exists l; congruence|].
    split; [intros j Hj; rewrite Q3 by exact Hj; unfold obj; now rewrite O2, O1|].
    split; [rewrite Q2; unfold osize; now rewrite O2, O1|].
    split; [exact Q5|]. split; [exact Q4|]. split; [apply (gs_tt _ _ _ _ _ _ _ G2)|].
    assert (HB : forall a, In a (d_addrs d2 lm2 lv2) -> size h <= a) by (intros a Ha; apply B2 in Ha; lia).
    split; [intros a Ha; apply HB; apply in_or_app; left; now right|exact HB].
  - destruct (load_spec b h1 r0 o0 d _ _ lm lv dm0 dv0 G1 W0 Hs0) as (h3 & r3 & d3 & E3 & Q1 & Q2 & Q3 & Q4 & Q5 & Q6 & Q7 & Q8 & _).
    { unfold osize in *. rewrite O1. exact Ho0. }
    { apply full_length; [exact F1|exact Ll]. }
    { apply full_length; [exact F2|exact Lv]. }
    { assert (Ob : obj h1 o0 = obj h o0) by (unfold obj; now rewrite O1). rewrite Ob, Eo. unfold shape_at.
      rewrite (grows_get _ _ _ Gr1) by (apply Bo0; cbn; tauto). rewrite Hgk by (cbn; tauto). exact Hx. }
    rewrite E3. cbn [bind]. exists h3, d, r3, dm, dv, lm, lv.
    assert (Hg : forall a, get h3 a = get h1 a) by (intros a; unfold get; now rewrite Q1).
    assert (Hgm : forall l, map (get h3) l = map (get h1) l) by (intros l; apply map_ext; exact Hg).
    split; [reflexivity|]. split; [exact W|]. split; [exact Q6|].
    split; [now rewrite Hgm|]. split; [now rewrite Hgm|].
    split; [rewrite Q5, Hg, El; now apply (grows_get _ _ _ Gr1)|].
    split. { unfold view. rewrite Q4, Eo, !Hg. rewrite !Hgk by (cbn; tauto). reflexivity. }
    split; [exact Q7|]. split; [exact Q8|].
    split; [destruct Gr1 as [l Gr]; exists l; congruence|].
    split; [intros j Hj; rewrite Q3 by exact Hj; unfold obj; now rewrite O1|].
    split; [rewrite Q2; unfold osize; now rewrite O1|].
    split; [exact Q5|]. split; [exact Q4|]. split; [apply (gs_tt _ _ _ _ _ _ _ G1)|].
    split; [intros a Ha; apply B1 in Ha; lia|]. split; [congruence|exact Eo].
Qed.

(** * C35 *)

(** A saved result, loaded into a result of the same kind that holds one state, reports the same, and continues the
    same; saving and loading change nothing in the saved result. *)
Theorem C35_round_trip : forall b h r o k r0 o0 disk,
  reachable b h r o -> latest r = Ok k -> (forall name, In name moment_names -> one_shape (rep_moment h r name)) ->
  reachable b h r0 o0 -> dq_items (r_states r0) = [o0] -> ~ In o0 (dq_items (r_states r)) ->
  map cell_size (v_x (view h o0)) = map cell_size (v_x (view h k)) ->
  exists h' d r', transfer h r r0 disk = Ok (h', d, r') /\
    rep_ll h' r' = rep_ll h r /\
    (forall name, In name moment_names -> rep_moment h' r' name = rep_moment h r name) /\
    latest r' = Ok o0 /\ view h' o0 = view h k /\
    same_reports h h' r k /\
    (forall cs, Forall (content_ok b) cs -> exists ha ra oa hb rb ob,
       steps h r k cs = Ok (ha, ra, oa) /\ steps h' r' o0 cs = Ok (hb, rb, ob) /\
       rep_ll hb rb = rep_ll ha ra /\
       (forall name, In name moment_names -> rep_moment hb rb name = rep_moment ha ra name) /\
       view hb ob = view ha oa).
Proof.
  intros b h r o k r0 o0 disk HR Hk Hsh HR0 Hs0 Hno Hx.
  destruct (transfer_spec b h r o k r0 o0 disk HR Hk Hsh HR0 Hs0 Hx)
    as (h' & d & r' & dm & dv & lm & lv & E & W & W' & M1 & M2 & L & V & St & I' & Gr & Ob & Os & _ & _ & _ & _).
  pose proof (reachable_inv _ _ _ _ HR) as HI. pose proof (inv_state b h r o k HI (or_intror (latest_in _ _ Hk))) as HIk.
  exists h', d, r'. split; [exact E|]. split; [exact L|].
  split. { intros name [<-|[<-|[]]].
    - now rewrite (rep_moment_means _ _ _ _ W), (rep_moment_means _ _ _ _ W').
    - now rewrite (rep_moment_vars _ _ _ _ W), (rep_moment_vars _ _ _ _ W'). }
  split; [unfold latest; now rewrite St, Hs0|]. split; [exact V|].
  split.
  { apply (untouched_reports b); [exact HIk|]. destruct (inv_below _ _ _ _ HIk) as [B1 B2]. constructor.
    - exact (grows_size _ _ Gr).
    - unfold osize in Os. lia.
    - intros a Ha. apply (grows_get _ _ _ Gr). now apply B1.
    - intros j Hj. apply Ob. intros ->. destruct Hj as [<-|Hj]; [apply Hno; now apply latest_in|contradiction]. }
  intros cs Hc.
  destruct (steps_spec b cs h r k HIk Hc) as (ha & ra & oa & Ea & _ & La & _ & _ & Ga & _ & _ & _ & Va & Wa & _).
  destruct (steps_spec b cs h' r' o0 I' Hc) as (hb & rb & ob & Eb & _ & Lb & _ & _ & Gb & _ & _ & _ & Vb & Wb & _).
  exists ha, ra, oa, hb, rb, ob. split; [exact Ea|]. split; [exact Eb|].
  split; [unfold rep_ll; rewrite La, Lb, Ga, Gb, L; reflexivity|].
  split; [|rewrite Va, Vb, V; reflexivity].
  destruct (Wa _ _ W) as (dma & dva & Wa' & _ & _ & Q1 & Q2). destruct (Wb _ _ W') as (dmb & dvb & Wb' & _ & _ & Q3 & Q4).
  cbn [dq_max dq_items] in Q3, Q4.
  intros name [<-|[<-|[]]].
  - rewrite (rep_moment_means _ _ _ _ Wa'), (rep_moment_means _ _ _ _ Wb'), Q1, Q3, M1. reflexivity.
  - rewrite (rep_moment_vars _ _ _ _ Wa'), (rep_moment_vars _ _ _ _ Wb'), Q2, Q4, M2. reflexivity.
Qed.
Print Assumptions C35_round_trip.

(** A result that holds another number of states refuses to load. *)
Theorem C35_needs_one_state : forall h r d, List.length (dq_items (r_states r)) <> 1 ->
  forall x, res_load h r d <> Ok x.
Proof.
  intros h r d Hn x. unfold res_load. destruct (Container.load_state_dict (r_tt r) (d_tt d)) as [[tup rest] [e|]]; [discriminate|].
  destruct (dq_items (r_states r)) as [|o [|p l]]; cbn in Hn; [discriminate|lia|discriminate].
Qed.
Print Assumptions C35_needs_one_state.

(** * C36 *)

(** Written to disk and read back, the loaded result shares nothing with the running one: whatever happens to one of
    them (filtering, resampling, exchanging), the other reports the same, and so does the dictionary while the original
    run continues. *)
Theorem C36_independent_partial : forall b h r o k r0 o0,
  reachable b h r o -> latest r = Ok k -> (forall name, In name moment_names -> one_shape (rep_moment h r name)) ->
  reachable b h r0 o0 -> dq_items (r_states r0) = [o0] -> ~ In o0 (dq_items (r_states r)) ->
  map cell_size (v_x (view h o0)) = map cell_size (v_x (view h k)) ->
  exists h' d r', transfer h r r0 true = Ok (h', d, r') /\
    (forall es h2 r2 k2, Forall (action_ok b) es -> acts (h', r, k) es = Ok (h2, r2, k2) ->
       same_reports h' h2 r' o0 /\ same_saved h' h2 d) /\
    (forall es h2 r2 o2, Forall (action_ok b) es -> acts (h', r', o0) es = Ok (h2, r2, o2) -> same_reports h' h2 r k).
Proof.
  intros b h r o k r0 o0 HR Hk Hsh HR0 Hs0 Hno Hx.
  destruct (transfer_spec b h r o k r0 o0 true HR Hk Hsh HR0 Hs0 Hx)
    as (h' & d & r' & dm & dv & lm & lv & E & W & W' & M1 & M2 & L & V & St & I' & Gr & Ob & Os & Rl & Od & Td & Bn & Bd).
  pose proof (reachable_inv _ _ _ _ HR) as HI. pose proof (inv_state b h r o k HI (or_intror (latest_in _ _ Hk))) as HIk.
  destruct (inv_below _ _ _ _ HIk) as [B1 B2].
  assert (Hko : forall j, In j (objects r k) -> j <> o0).
  { intros j Hj ->. destruct Hj as [<-|Hj]; [apply Hno; now apply latest_in|contradiction]. }
  assert (UT : untouched h h' r k).
  { constructor.
    - exact (grows_size _ _ Gr).
    - unfold osize in Os. lia.
    - intros a Ha. apply (grows_get _ _ _ Gr). now apply B1.
    - intros j Hj. apply Ob. now apply Hko. }
  assert (I2 : Inv b h' r k) by (eapply untouched_inv; eassumption).
  assert (Hfp : forall a, In a (footprint h' r k) -> a < size h).
  { intros a Ha. apply B1. apply in_footprint. apply in_footprint in Ha. destruct Ha as [Ha|(j & Hj & Ha)]; [now left|].
    right. exists j. split; [exact Hj|]. now rewrite (ut_objs _ _ _ _ UT j Hj) in Ha. }
  assert (Hob' : forall j, In j (objects r' o0) -> j = o0).
  { intros j. unfold objects. rewrite St, Hs0. intros [<-|[<-|[]]]; reflexivity. }
  assert (Hfp' : forall a, In a (footprint h' r' o0) -> In a (d_addrs d lm lv)).
  { intros a Ha. apply in_footprint in Ha. unfold d_addrs. apply in_or_app. destruct Ha as [Ha|(j & Hj & Ha)].
    - left. rewrite (with_recorded _ _ _ W') in Ha. cbn [dq_items] in Ha. rewrite Rl in Ha. exact Ha.
    - right. rewrite (Hob' j Hj), Od in Ha. exact Ha. }
  assert (Sep : separate h' r k r' o0).
  { split.
    - intros a Ha Hc. apply Hfp in Ha. apply Hfp' in Hc. apply Bd in Hc. lia.
    - intros j Hj Hc. apply Hob' in Hc. now apply (Hko j Hj). }
  assert (Sep' : separate h' r' o0 r k) by (destruct Sep as [A B]; split; intros a Ha Hc; [exact (A a Hc Ha)|exact (B a Hc Ha)]).
  exists h', d, r'. split; [exact E|]. split.
  - intros es h2 r2 k2 Hok Ea. destruct (acts_confined b es _ _ _ _ _ _ I2 Hok Ea) as [C _].
    destruct (confined_untouched b _ _ _ _ _ _ r' o0 C Sep I') as [U _].
    split; [now apply (untouched_reports b)|].
    assert (Hg : forall a, In a (d_addrs d lm lv) -> get h2 a = get h' a).
    { intros a Ha. destruct U as [_ _ U3 _]. apply U3. apply in_footprint. unfold d_addrs in Ha. apply in_app_or in Ha.
      destruct Ha as [Ha|Ha].
      - left. rewrite (with_recorded _ _ _ W'). cbn [dq_items]. rewrite Rl. exact Ha.
      - right. exists o0. split; [now left|]. now rewrite Od. }
    split; [|split].
    + unfold saved_rows. rewrite Td. cbn [map fst snd].
      assert (Hm : map (get h2) lm = map (get h') lm).
      { apply map_ext_in. intros a Ha. apply Hg. apply in_or_app. left. right. apply in_or_app. now left. }
      assert (Hv : map (get h2) lv = map (get h') lv).
      { apply map_ext_in. intros a Ha. apply Hg. apply in_or_app. left. right. apply in_or_app. now right. }
      now rewrite Hm, Hv.
    + unfold saved_view. f_equal; apply Hg; apply in_or_app; right; cbn; tauto.
    + apply Hg. now left.
  - intros es h2 r2 o2 Hok Ea. destruct (acts_confined b es _ _ _ _ _ _ I' Hok Ea) as [C _].
    destruct (confined_untouched b _ _ _ _ _ _ r k C Sep' I2) as [U _]. now apply (untouched_reports b).
Qed.
Print Assumptions C36_independent_partial.

(** Loaded directly, the running total is one tensor for the original, the dictionary and the loaded result: one more
    observation in the original run changes all three. *)
Definition direct_run (l : R) : res (heap * saved * result * result * addr * addr) :=
  let start h := fresh_state h 0 [Arr [Fin 0]] [Arr [Fin 0]] [Num (Fin 0)] [Idx [0]] [Arr [Fin 0]] [Arr [Fin 0]] in
  let (h, o) := start (Heap [] []) in
  let! (h, r) := init_result h o (MLBool false) (MLBool false) in
  let (h, o0) := start h in
  let! (h, r0) := init_result h o0 (MLBool false) (MLBool false) in
  let! (h, d, r') := transfer h r r0 false in
  Ok (h, d, r, r', o, o0).
Definition one_more (l : R) : content :=
  Content 1 [Arr [Fin 0]] (New [Arr [Fin 0]]) [Num (Fin l)] Shared [Arr [Fin 0]] [Arr [Fin 0]].

Lemma direct_run_ok l : match direct_run l with Ok _ => True | Raise _ => False end.
Proof. cbv -[Rplus IZR]. exact I. Qed.

Lemma direct_run_eq l : exists h d r r' o o0 h2 r2 o2,
  direct_run l = Ok (h, d, r, r', o, o0) /\ steps h r o [one_more l] = Ok (h2, r2, o2) /\
  rep_ll h r' = [Num (Fin (0 + 0))] /\ saved_ll h d = [Num (Fin (0 + 0))] /\
  rep_ll h2 r' = [Num (Fin (0 + 0 + l))] /\ saved_ll h2 d = [Num (Fin (0 + 0 + l))].
Proof.
  pose proof (direct_run_ok l) as Ha. destruct (direct_run l) as [[[[[[h d] r] r'] o] o0]|] eqn:E; [|destruct Ha]. clear Ha.
  destruct (steps h r o [one_more l]) as [[[h2 r2] o2]|] eqn:E'.
  - exists h, d, r, r', o, o0, h2, r2, o2. split; [reflexivity|]. split; [exact E'|].
    cbv -[Rplus IZR] in E. injection E as <- <- <- <- <- <-. cbv -[Rplus IZR] in E'. injection E' as <- <- <-.
    cbv -[Rplus IZR]. do 3 (split; [reflexivity|]). reflexivity.
  - exfalso. cbv -[Rplus IZR] in E. injection E as <- <- <- <- <- <-. cbv -[Rplus IZR] in E'. discriminate.
Qed.

Theorem C36_independent_refuted : exists h d r r' o o0 h2 r2 o2,
  direct_run 3 = Ok (h, d, r, r', o, o0) /\ steps h r o [one_more 3] = Ok (h2, r2, o2) /\
  rep_ll h r' = [Num (Fin 0)] /\ rep_ll h2 r' = [Num (Fin 3)] /\
  saved_ll h d = [Num (Fin 0)] /\ saved_ll h2 d = [Num (Fin 3)].
Proof.
  destruct (direct_run_eq 3) as (h & d & r & r' & o & o0 & h2 & r2 & o2 & E1 & E2 & A & B & C & D).
  exists h, d, r, r', o, o0, h2, r2, o2. split; [exact E1|]. split; [exact E2|].
  rewrite A, B, C, D. replace (0 + 0)%R with 0%R by lra. replace (0 + 3)%R with 3%R by lra. auto.
Qed.
Print Assumptions C36_independent_refuted.

(** Of a dictionary used directly, only the running total (and the log-likelihood of an initial state, which is that
    tensor) changes while the run goes on filtering. *)
Theorem C36_only_total_shared_partial : forall b h r o k h1 d cs ha ra oa,
  reachable b h r o -> latest r = Ok k -> (forall name, In name moment_names -> one_shape (rep_moment h r name)) ->
  res_state_dict h r = Ok (h1, d) -> Forall (content_ok b) cs -> steps h1 r k cs = Ok (ha, ra, oa) ->
  saved_rows ha d = saved_rows h1 d /\
  v_time (saved_view ha d) = v_time (saved_view h1 d) /\ v_x (saved_view ha d) = v_x (saved_view h1 d) /\
  v_w (saved_view ha d) = v_w (saved_view h1 d) /\ v_inds (saved_view ha d) = v_inds (saved_view h1 d) /\
  v_mean (saved_view ha d) = v_mean (saved_view h1 d) /\ v_var (saved_view ha d) = v_var (saved_view h1 d) /\
  (s_ll (obj h k) <> r_ll r -> v_ll (saved_view ha d) = v_ll (saved_view h1 d)).
Proof.
  intros b h r o k h1 d cs ha ra oa HR Hk Hsh E Hc Es.
  pose proof (reachable_inv _ _ _ _ HR) as HI. destruct (iv_two _ _ _ _ HI) as (dm & dv & W).
  destruct (reachable_full _ _ _ _ HR dm dv W) as [F1 F2].
  pose proof (Hsh "filter_means"%string ltac:(cbn; tauto)) as Sm. pose proof (Hsh "filter_variances"%string ltac:(cbn; tauto)) as Sv.
  rewrite (rep_moment_means _ _ _ _ W) in Sm. rewrite (rep_moment_vars _ _ _ _ W) in Sv.
  destruct (save_spec b h r o k dm dv HI W F1 F2 (one_shape_same _ _ Sm) (one_shape_same _ _ Sv) Hk)
    as (h1' & d' & lm & lv & E1 & G1 & Gr1 & O1 & Eo & El & M1 & V1 & B1).
  rewrite E in E1. injection E1 as <- <-.
  pose proof (inv_state b h r o k HI (or_intror (latest_in _ _ Hk))) as HIk.
  destruct (inv_below _ _ _ _ HIk) as [C1 C2].
  assert (I1 : Inv b h1 r k).
  { eapply untouched_inv; [|exact HIk]. constructor.
    - exact (grows_size _ _ Gr1).
    - unfold osize. rewrite O1. lia.
    - intros a Ha. apply (grows_get _ _ _ Gr1). now apply C1.
    - intros j _. unfold obj. now rewrite O1. }
  destruct (steps_spec b cs h1 r k I1 Hc) as (ha' & ra' & oa' & Ea & _ & _ & _ & _ & _ & U & _). rewrite Es in Ea. injection Ea as <- <- <-.
  destruct G1 as [T1 T2 T3 T4 T5 T6 T7]. rewrite Eo, El in *.
  assert (Hne : forall a, In a [s_x (obj h k); s_w (obj h k); s_inds (obj h k); s_mean (obj h k); s_var (obj h k)] -> get ha a = get h1 a).
  { intros a Ha. assert (Hf : In a (fields (obj h k))) by (unfold fields; cbn [In] in *; tauto).
    apply U; [now apply T4|]. intros Ec. specialize (T7 a Hf Ec). clear -Ha T7 T5. subst a. unfold fields in T5.
    repeat match goal with H : NoDup (_ :: _) |- _ => apply NoDup_cons_iff in H; destruct H end. cbn [In] in *. intuition. }
  assert (Hr : forall a, In a (lm ++ lv) -> get ha a = get h1 a).
  { intros a Ha. apply U; [apply T2; now right|]. intros ->. apply NoDup_cons_iff in T3. tauto. }
  split.
  { unfold saved_rows. rewrite T1. cbn [map fst snd].
    assert (Hm : map (get ha) lm = map (get h1) lm) by (apply map_ext_in; intros a Ha; apply Hr; apply in_or_app; now left).
    assert (Hv : map (get ha) lv = map (get h1) lv) by (apply map_ext_in; intros a Ha; apply Hr; apply in_or_app; now right).
    now rewrite Hm, Hv. }
  unfold saved_view. rewrite Eo. cbn [v_time v_x v_w v_ll v_inds v_mean v_var]. split; [reflexivity|].
  do 5 (split; [apply Hne; cbn; tauto|]). intros Hn. apply U; [apply T4; cbn; tauto|exact Hn].
Qed.
Print Assumptions C36_only_total_shared_partial.

(** The hypotheses are met by a run and a second, freshly initialised result. *)
Example C35_nonvacuous : exists h r o r0 o0,
  reachable 2 h r o /\ latest r = Ok o /\ (forall name, In name moment_names -> one_shape (rep_moment h r name)) /\
  reachable 2 h r0 o0 /\ dq_items (r_states r0) = [o0] /\ ~ In o0 (dq_items (r_states r)) /\
  map cell_size (v_x (view h o0)) = map cell_size (v_x (view h o)) /\ rep_ll h r = num2 3 4.
Proof.
  destruct (swap_reports 3 4 1 2) as (h & r & o & h' & E & _ & R1 & _ & _ & _ & La & _).
  pose proof (swap_reachable _ _ _ _ h r o E) as HR. pose proof (reachable_inv _ _ _ _ HR) as HI.
  assert (Q : (forall name, In name moment_names -> one_shape (rep_moment h r name)) /\ dq_items (r_states r) = [o] /\
     map cell_size (v_x (view h o)) = [1; 1]).
  { clear -E. cbv -[Rplus IZR] in E. injection E as <- <- <-. split; [|split; reflexivity].
    intros name [<-|[<-|[]]] t t' [<-|[<-|[]]] [<-|[<-|[]]]; reflexivity. }
  destruct Q as (Q1 & Q2 & Q3).
  destruct (new_run 2 h r o 0 (col2 0 0) (col2 0 0) (num2 0 0) (idx2 0 0) (col2 0 0) (col2 0 0) (MLBool false) (MLBool false) [] HI
     eq_refl eq_refl eq_refl eq_refl eq_refl eq_refl I I (Forall_nil _))
    as (h1 & o0 & h2 & r2 & h3 & r3 & o3 & G1 & G2 & G3 & I3 & HR3 & UT & Sep & _ & Mx & _).
  exists h3, r, o, r3, o3.
  pose proof (untouched_reports 2 h h3 r o HI UT) as (S1 & S2 & _ & S4).
  split; [eapply reach_elsewhere; eassumption|]. split; [exact La|].
  split; [intros name Hn; rewrite S2 by exact Hn; now apply Q1|]. split; [exact HR3|].
  destruct (reachable_latest 2 h3 r3 o3 HR3 Mx) as [LI _ _]. split; [exact LI|].
  split. { rewrite Q2. intros [Hc|[]]. destruct Sep as [_ Sep]. apply (Sep o (or_introl eq_refl)). left. now symmetry. }
  split; [|rewrite S1, R1; unfold num2; repeat f_equal; lra].
  rewrite S4, Q3.
  destruct (fresh_state_spec 2 h 0 (col2 0 0) (col2 0 0) (num2 0 0) (idx2 0 0) (col2 0 0) (col2 0 0) h1 o0
     eq_refl eq_refl eq_refl eq_refl eq_refl eq_refl G1) as (_ & _ & A1 & _ & A2 & _ & A3 & A4).
  cbn in G3. injection G3 as <- <- <-.
  destruct (init_spec 2 h1 o0 (MLBool false) (MLBool false)) as (j2 & t2 & dm & ds & Ei & Iv & Rl & _ & _ & _ & O2 & _ & U2 & _); auto.
  { destruct (fresh_state_spec 2 h 0 (col2 0 0) (col2 0 0) (num2 0 0) (idx2 0 0) (col2 0 0) (col2 0 0) h1 o0
     eq_refl eq_refl eq_refl eq_refl eq_refl eq_refl G1) as (_ & A & _). lia. }
  { exact I. } { exact I. }
  rewrite G2 in Ei. injection Ei as <- <-.
  assert (Hv : v_x (view h2 o0) = col2 0 0).
  { unfold view, obj. cbn [v_x]. rewrite O2. fold (obj h1 o0). rewrite U2; [exact (f_equal v_x A4)|].
    rewrite Rl. intros Ec. unfold fields in A3. rewrite Ec in A3. apply NoDup_cons_iff in A3. destruct A3 as [A3 _]. apply A3. cbn; tauto. }
  rewrite Hv. reflexivity.
Qed.
