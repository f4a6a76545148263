(** Lemmas about saving and loading filter results. *)
From Coq Require Import Reals List Bool Arith ZArith String Lia.
From Verif.Spec Require ContainerSpec.
From Verif.Proofs Require ContainerProofs.
From Verif.Model Require Import Base Xf Container Result.
From Verif.Spec Require Import ResultSpec.
From Verif.Proofs Require Import ResultProofs ResultReach ResultRun ResultExchange.
Import ListNotations.
Local Open Scope list_scope.
Local Open Scope nat_scope.

(** ** Capacities are respected *)

Definition full {A} (d : dq A) : Prop := ContainerSpec.newest (dq_max d) (dq_items d) = dq_items d.

Lemma full_append {A} (d : dq A) x : full d -> full (dq_append d x).
Proof.
  intros H. unfold full. rewrite dq_append_max.
  rewrite (ContainerProofs.dq_append_newest d (dq_items d) x) by (symmetry; exact H).
  cbn [dq_items]. apply ContainerProofs.newest_idem.
Qed.
Lemma full_length {A B} (d : dq A) (l : list B) : full d -> List.length l = List.length (dq_items d) ->
  ContainerSpec.newest (dq_max d) l = l.
Proof.
  unfold full, ContainerSpec.newest. destruct (dq_max d) as [m|]; [|reflexivity]. intros H L. rewrite L.
  assert (List.length (dq_items d) - m = 0 \/ dq_items d = []) as [E|E].
  { destruct (dq_items d) as [|x xs]; [now right|]. left.
    apply (f_equal (@List.length A)) in H. rewrite skipn_length in H. cbn [List.length] in *. lia. }
  - now rewrite E.
  - rewrite E in L. destruct l; [|discriminate]. now rewrite skipn_nil.
Qed.

Lemma make_dequeue_full {A} m (d : dq A) : make_dequeue m = Ok d -> full d.
Proof. intros E. unfold full. rewrite (make_dequeue_items _ _ E). unfold ContainerSpec.newest. destruct (dq_max d); [apply skipn_nil|reflexivity]. Qed.

Lemma reachable_full b h r o : reachable b h r o -> forall dm dv, with_deques r dm dv -> full dm /\ full dv.
Proof.
  induction 1 as [h time x w ll inds mean var h1 o rs rm h2 r L1 L2 L3 L4 L5 L6 Ef Ei
                 |h r o e h' r' o' HR IH Hok E|h r o other mask h' HR IH E|h r o h' HR IH U]; intros dm0 dv0 W0; auto.
  - destruct (fresh_state_spec b _ _ _ _ _ _ _ _ _ _ L1 L2 L3 L4 L5 L6 Ef) as (G & Eo & Os & _ & B & _ & N & _).
    destruct (init_result_inv _ _ _ _ _ Ei) as (dm1 & ds1 & E1 & E2 & _).
    destruct (init_spec b h1 o rs rm ltac:(lia) B N (make_dequeue_valid _ _ E2) (make_dequeue_valid _ _ E1))
      as (h3 & r3 & dm & ds & Ei' & I & Rl & Em & Es & S2 & O2 & T2 & U2 & W & St).
    rewrite Ei in Ei'. injection Ei' as <- <-. unfold with_deques in W, W0. rewrite W in W0. injection W0 as <- <-.
    split; apply full_append; eapply make_dequeue_full; exact Em.
  - pose proof (reachable_inv _ _ _ _ HR) as HI. destruct e as [c|idx hist]; cbn [do_op rop_ok] in *.
    + destruct (step_spec b h r o c HI Hok) as (h2 & r2 & o2 & E2 & I2 & Rl & Eo & S2 & O2 & T2 & U2 & K2 & V2 & F2 & F3 & F4 & F5 & F6 & W2 & St).
      rewrite E in E2. injection E2 as <- <- <-. destruct (iv_two _ _ _ _ HI) as (dm & dv & W). pose proof (W2 _ _ W) as W'.
      unfold with_deques in W', W0. rewrite W' in W0. injection W0 as <- <-.
      destruct (IH dm dv W). split; now apply full_append.
    + destruct (resample h r idx hist) as [h2|] eqn:E2; [|discriminate]. cbn [bind] in E. injection E as <- <- <-. now apply IH.
Qed.

(** ** Copies *)

Lemma copy_rows_spec l : forall h h' l', copy_rows h l = (h', l') -> (forall a, In a l -> a < size h) ->
  grows h h' /\ h_objs h' = h_objs h /\ List.length l' = List.length l /\ map (get h') l' = map (get h) l /\
  NoDup l' /\ (forall a, In a l' -> size h <= a < size h').
Proof.
  induction l as [|a l IH]; intros h h' l' E HL; cbn [copy_rows] in E.
  - injection E as <- <-. split; [apply grows_refl|]. do 3 (split; [reflexivity|]). split; [constructor|]. intros a [].
  - destruct (alloc h (get h a)) as [h1 a1] eqn:E1. destruct (copy_rows h1 l) as [h2 l2] eqn:E2. injection E as <- <-.
    unfold alloc in E1. injection E1 as <- <-.
    assert (S1 : size (Heap (h_tens h ++ [get h a]) (h_objs h)) = S (size h)) by (unfold size; cbn; rewrite app_length; cbn; lia).
    destruct (IH _ _ _ E2) as (G & O & L & M & N & B).
    { intros c Hc. rewrite S1. specialize (HL c (or_intror Hc)). lia. }
    assert (G0 : grows h (Heap (h_tens h ++ [get h a]) (h_objs h))) by (now eexists).
    pose proof (grows_size _ _ G) as Gs.
    split; [eapply grows_trans; eassumption|]. split; [exact O|]. split; [cbn; congruence|]. split; [|split].
    + cbn [map]. f_equal.
      * rewrite (grows_get _ _ _ G); [|unfold size in *; lia]. apply get_app_new.
      * rewrite M. apply map_ext_in. intros c Hc. apply (grows_get _ _ _ G0). apply HL. now right.
    + constructor; [|exact N]. intros Hc. apply B in Hc. unfold size in *. lia.
    + intros c [<-|Hc]; [unfold size in *; lia|]. apply B in Hc. unfold size in *. lia.
Qed.

Definition deque_entries (dm dv : dq addr) : odict (list addr) :=
  [(deque_key (dq_max dm) "filter_means", dq_items dm); (deque_key (dq_max dv) "filter_variances", dq_items dv)].

Lemma result_tuples_saved (shape : addr -> list nat) r dm dv : with_deques r dm dv -> full dm -> full dv ->
  same_shapes shape (dq_items dm) = true -> same_shapes shape (dq_items dv) = true ->
  Container.state_dict shape (r_tt r) = Ok (deque_entries dm dv).
Proof.
  intros W F1 F2 S1 S2. rewrite ContainerProofs.state_dict_eq.
  - rewrite W. reflexivity.
  - rewrite W. constructor; cbn [c_tuples c_deques od_keys map fst].
    + constructor.
    + repeat constructor; cbn; intuition discriminate.
    + intros n [].
    + intros n d [H|[H|[]]]; injection H as <- <-; [exact F1|exact F2].
    + intros n v [].
    + intros n d [H|[H|[]]]; injection H as <- <-; [exact S1|exact S2].
Qed.

Lemma result_tuples_loaded (d1 d2 : dq addr) m1 m2 l1 l2 :
  Container.load_state_dict (Cont [] [("filter_means"%string, d1); ("filter_variances"%string, d2)])
    [(deque_key m1 "filter_means", l1); (deque_key m2 "filter_variances", l2)]
  = (Cont [] [("filter_means"%string, Dq m1 (ContainerSpec.newest m1 l1)); ("filter_variances"%string, Dq m2 (ContainerSpec.newest m2 l2))], [], None).
Proof.
  rewrite (ContainerProofs.load_all (T := addr)) with (f := fun c k v => match load_entry c k v with Ok c' => c' | Raise _ => c end).
  - cbn [fold_left fst snd]. rewrite !ContainerProofs.load_entry_deque. reflexivity.
  - cbn [od_keys map fst forallb]. now rewrite !ContainerProofs.load_filter_deque.
  - intros c k v [H|[H|[]]]; injection H as <- <-; now rewrite ContainerProofs.load_entry_deque.
Qed.

(** ** Well-formed dictionaries *)

Record good_saved (b : nat) (h : heap) (d : saved) (m1 m2 : option nat) (lm lv : list addr) : Prop := {
  gs_tt : d_tt d = [(deque_key m1 "filter_means", lm); (deque_key m2 "filter_variances", lv)];
  gs_rec : forall a, In a (d_ll d :: lm ++ lv) -> batched b h a;
  gs_nodup : NoDup (d_ll d :: lm ++ lv);
  gs_state : forall a, In a (fields (d_obj (d_state d))) -> batched b h a;
  gs_fields : NoDup (fields (d_obj (d_state d)));
  gs_apart : forall a, In a (fields (d_obj (d_state d))) -> ~ In a (lm ++ lv);
  gs_ll : forall a, In a (fields (d_obj (d_state d))) -> a = d_ll d -> a = s_ll (d_obj (d_state d))
}.
(** Addresses of a dictionary. *)
Definition d_addrs (d : saved) (lm lv : list addr) : list addr := (d_ll d :: lm ++ lv) ++ fields (d_obj (d_state d)).

Lemma inv_state b h r o k : Inv b h r o -> In k (objects r o) -> Inv b h r k.
Proof.
  intros HI Hk. assert (Hs : forall j, In j (objects r k) -> In j (objects r o)) by (intros j [<-|Hj]; [exact Hk|now right]).
  destruct HI as [A B C D E F]. constructor; auto.
Qed.

Lemma latest_in r k : latest r = Ok k -> In k (dq_items (r_states r)).
Proof.
  unfold latest. destruct (rev (dq_items (r_states r))) as [|x l] eqn:E; [discriminate|]. intros H. injection H as <-.
  apply in_rev. rewrite E. now left.
Qed.

Lemma save_spec b h r o k dm dv : Inv b h r o -> with_deques r dm dv -> full dm -> full dv ->
  same_shapes (shape_at h) (dq_items dm) = true -> same_shapes (shape_at h) (dq_items dv) = true ->
  latest r = Ok k ->
  exists h1 d lm lv, res_state_dict h r = Ok (h1, d) /\ good_saved b h1 d (dq_max dm) (dq_max dv) lm lv /\
    grows h h1 /\ h_objs h1 = h_objs h /\ d_obj (d_state d) = obj h k /\ d_ll d = r_ll r /\
    map (get h1) lm = map (get h) (dq_items dm) /\ map (get h1) lv = map (get h) (dq_items dv) /\
    (forall a, In a (lm ++ lv) -> size h <= a < size h1).
Proof.
  intros HI W F1 F2 S1 S2 Hk. unfold res_state_dict. rewrite (result_tuples_saved _ r dm dv W F1 F2 S1 S2). cbn [bind].
  unfold deque_entries. cbn [copy_dict].
  destruct (copy_rows h (dq_items dm)) as [ha lm] eqn:Ea. destruct (copy_rows ha (dq_items dv)) as [hb lv] eqn:Eb.
  rewrite Hk. cbn [bind].
  assert (Hrec : forall a, In a (dq_items dm ++ dq_items dv) -> batched b h a).
  { intros a Ha. apply (iv_rec _ _ _ _ HI). rewrite (with_recorded _ _ _ W). now right. }
  destruct (copy_rows_spec _ _ _ _ Ea) as (G1 & O1 & L1 & M1 & N1 & B1).
  { intros a Ha. apply Hrec. apply in_or_app. now left. }
  pose proof (grows_size _ _ G1) as Z1.
  destruct (copy_rows_spec _ _ _ _ Eb) as (G2 & O2 & L2 & M2 & N2 & B2).
  { intros a Ha. destruct (Hrec a ltac:(apply in_or_app; now right)) as [Q _]. unfold size in *. lia. }
  pose proof (grows_size _ _ G2) as Z2.
  pose proof (grows_trans _ _ _ G1 G2) as G.
  assert (Eo : obj hb k = obj h k) by (unfold obj; now rewrite O2, O1).
  rewrite Eo.
  pose proof (latest_in r k Hk) as Hin.
  destruct (iv_objs _ _ _ _ HI k (or_intror Hin)) as [Hk1 Hk2].
  pose proof (iv_apart _ _ _ _ HI k (or_intror Hin)) as [A1 A2 A3 A4 A5 A6 A7].
  assert (Hll : batched b h (r_ll r)) by (apply (iv_rec _ _ _ _ HI); now left).
  assert (Mm : map (get hb) lm = map (get h) (dq_items dm)).
  { rewrite <- M1. apply map_ext_in. intros a Ha. apply (grows_get _ _ _ G2). now apply B1. }
  assert (Mv : map (get hb) lv = map (get h) (dq_items dv)).
  { rewrite M2. apply map_ext_in. intros a Ha. apply (grows_get _ _ _ G1). apply Hrec. apply in_or_app. now right. }
  assert (Bn : forall a, In a (lm ++ lv) -> size h <= a < size hb).
  { intros a Ha. apply in_app_or in Ha. destruct Ha as [Ha|Ha]; [apply B1 in Ha|apply B2 in Ha]; lia. }
  assert (Lb : forall l l0, map (get hb) l = map (get h) l0 -> (forall a, In a l0 -> batched b h a) -> forall a, In a l -> List.length (get hb a) = b).
  { intros l l0 Em Hb a Ha. assert (Hi : In (get hb a) (map (get hb) l)) by now apply in_map. rewrite Em in Hi.
    apply in_map_iff in Hi. destruct Hi as (a0 & <- & Ha0). now apply Hb. }
  exists hb. eexists. exists lm, lv. split; [reflexivity|].
  split; [|do 2 (split; [congruence || assumption|]); do 2 (split; [reflexivity|]); do 2 (split; [assumption|]); exact Bn].
  constructor; cbn [d_tt d_ll d_state d_obj].
  - reflexivity.
  - intros a [<-|Ha]; [now apply (batched_grows _ _ _ _ G)|]. split; [now apply Bn|].
    apply in_app_or in Ha. destruct Ha as [Ha|Ha].
    + apply (Lb lm (dq_items dm) Mm); auto. intros c Hc. apply Hrec. apply in_or_app. now left.
    + apply (Lb lv (dq_items dv) Mv); auto. intros c Hc. apply Hrec. apply in_or_app. now right.
  - constructor.
    + intros Hc. apply Bn in Hc. destruct Hll as [Q _]. unfold size in *. lia.
    + apply nodup_split. split; [exact N1|]. split; [exact N2|]. intros a Ha Hc. apply B1 in Ha. apply B2 in Hc. lia.
  - intros a Ha. apply (batched_grows _ _ _ _ G). now apply Hk2.
  - exact A7.
  - intros a Ha Hc. apply Bn in Hc. destruct (Hk2 a Ha) as [Q _]. unfold size in *. lia.
  - intros a Ha ->. unfold fields in Ha. cbn [In] in Ha. unfold recorded in A1, A2, A3. cbn [In] in A1, A2, A3.
    destruct Ha as [Ha|[Ha|[Ha|[Ha|[Ha|[Ha|[]]]]]]]; [exfalso; apply A1; now left|exfalso; apply A2; now left|now symmetry|exfalso; apply A3; now left| |].
    + destruct A5. congruence.
    + destruct A6. congruence.
Qed.

(** Loading makes a result over the dictionary's own tensors. *)
Lemma load_spec b h r0 o0 d m1 m2 lm lv dm0 dv0 : good_saved b h d m1 m2 lm lv -> with_deques r0 dm0 dv0 ->
  dq_items (r_states r0) = [o0] -> o0 < osize h ->
  ContainerSpec.newest m1 lm = lm -> ContainerSpec.newest m2 lv = lv ->
  shape_at h (s_x (obj h o0)) = shape_at h (s_x (d_obj (d_state d))) ->
  exists h2 r2 d2, res_load h r0 d = Ok (h2, r2, d2) /\
    h_tens h2 = h_tens h /\ osize h2 = osize h /\ (forall j, j <> o0 -> obj h2 j = obj h j) /\
    obj h2 o0 = d_obj (d_state d) /\
    r_ll r2 = d_ll d /\ with_deques r2 (Dq m1 lm) (Dq m2 lv) /\ r_states r2 = r_states r0 /\ Inv b h2 r2 o0 /\
    d_ll d2 = d_ll d /\ d_state d2 = d_state d /\ d_tt d2 = [].
Proof.
  intros G W Es Ho N1 N2 Sh. unfold res_load. rewrite W, (gs_tt _ _ _ _ _ _ _ G), result_tuples_loaded, Es.
  unfold state_load. destruct (list_eq_dec Nat.eq_dec (shape_at h (s_x (obj h o0))) (shape_at h (s_x (d_obj (d_state d))))) as [_|Hc]; [|contradiction].
  cbn [bind]. rewrite N1, N2.
  set (s := d_obj (d_state d)) in *.
  assert (Et : SObj (s_time (obj h o0) + (- s_time (obj h o0) + s_time s)) (s_x s) (s_w s) (s_ll s) (s_inds s) (s_mean s) (s_var s) = s).
  { destruct s as [t x w l i m v]. cbn. f_equal. lia. }
  rewrite Et. eexists. eexists. eexists. split; [reflexivity|].
  assert (Ob : obj (set_obj h o0 s) o0 = s) by (unfold obj, set_obj; cbn; rewrite nth_upd by exact Ho; now rewrite Nat.eqb_refl).
  split; [reflexivity|]. split; [unfold osize, set_obj; cbn; apply length_upd|].
  split; [intros j Hj; unfold obj, set_obj; cbn; rewrite nth_upd by exact Ho; now destruct (Nat.eqb_spec j o0)|].
  split; [exact Ob|]. do 2 (split; [reflexivity|]). split; [reflexivity|].
  split; [|split; [reflexivity|split; reflexivity]].
  assert (Hk : forall j, In j (objects (Result (d_ll d) (Cont [] [("filter_means"%string, Dq m1 lm); ("filter_variances"%string, Dq m2 lv)]) (r_states r0)) o0) -> j = o0).
  { intros j. unfold objects. cbn [r_states]. rewrite Es. intros [<-|[<-|[]]]; reflexivity. }
  assert (Wd : with_deques (Result (d_ll d) (Cont [] [("filter_means"%string, Dq m1 lm); ("filter_variances"%string, Dq m2 lv)]) (r_states r0)) (Dq m1 lm) (Dq m2 lv)) by reflexivity.
  destruct G as [G1 G2 G3 G4 G5 G6 G7]. fold s in G4, G5, G6, G7.
  constructor.
  - now exists (Dq m1 lm), (Dq m2 lv).
  - rewrite (with_recorded _ _ _ Wd). cbn [dq_items r_ll]. exact G2.
  - rewrite (with_recorded _ _ _ Wd). cbn [dq_items r_ll]. exact G3.
  - intros j Hj. rewrite (Hk j Hj), Ob. split; [unfold osize, set_obj; cbn; now rewrite length_upd|exact G4].
  - intros j Hj. rewrite (Hk j Hj), Ob.
    assert (Hm : moments (Result (d_ll d) (Cont [] [("filter_means"%string, Dq m1 lm); ("filter_variances"%string, Dq m2 lv)]) (r_states r0)) = lm ++ lv).
    { unfold moments. cbn. now rewrite app_nil_r. }
    pose proof G5 as N. unfold fields in N.
    assert (Hne : forall a, In a [s_x s; s_w s; s_inds s; s_mean s; s_var s] -> a <> d_ll d).
    { intros a Ha E. assert (Hf : In a (fields s)) by (unfold fields; cbn [In] in *; tauto).
      specialize (G7 a Hf E). clear -Ha G7 N. subst a.
      repeat match goal with H : NoDup (_ :: _) |- _ => apply NoDup_cons_iff in H; destruct H end. cbn [In] in *. intuition. }
    assert (Hnm : forall a, In a (fields s) -> ~ In a lm /\ ~ In a lv).
    { intros a Ha. specialize (G6 a Ha). rewrite in_app_iff in G6. tauto. }
    constructor; unfold recorded; rewrite ?Hm; cbn [r_ll In].
    + intros [E|E]; [apply (Hne (s_x s)); [cbn; tauto|now symmetry]|apply (G6 (s_x s)); [cbn; tauto|exact E]].
    + intros [E|E]; [apply (Hne (s_w s)); [cbn; tauto|now symmetry]|apply (G6 (s_w s)); [cbn; tauto|exact E]].
    + intros [E|E]; [apply (Hne (s_inds s)); [cbn; tauto|now symmetry]|apply (G6 (s_inds s)); [cbn; tauto|exact E]].
    + apply G6. cbn; tauto.
    + split; [apply Hne; cbn; tauto|]. rewrite (with_vars _ _ _ Wd). apply Hnm. cbn; tauto.
    + split; [apply Hne; cbn; tauto|]. rewrite (with_means _ _ _ Wd). apply Hnm. cbn; tauto.
    + exact G5.
  - cbn [r_states]. rewrite Es. constructor; [intros []|constructor].
Qed.

(** ** Serialised dictionaries *)

Lemma get_app_old T l O a : a < List.length T -> get (Heap (T ++ l) O) a = get (Heap T O) a.
Proof. intros H. unfold get. cbn. now apply app_nth1. Qed.
Lemma get_app_at T l O i : get (Heap (T ++ l) O) (List.length T + i) = nth i l [].
Proof. unfold get. cbn. rewrite app_nth2 by lia. now replace (List.length T + i - List.length T) with i by lia. Qed.

Lemma serialise_spec b h d m1 m2 lm lv : good_saved b h d m1 m2 lm lv ->
  exists h' d' lm' lv', serialise h d = (h', d') /\ good_saved b h' d' m1 m2 lm' lv' /\ grows h h' /\ h_objs h' = h_objs h /\
    List.length lm' = List.length lm /\ List.length lv' = List.length lv /\
    map (get h') lm' = map (get h) lm /\ map (get h') lv' = map (get h) lv /\ get h' (d_ll d') = get h (d_ll d) /\
    (let s := d_obj (d_state d) in let s' := d_obj (d_state d') in
     s_time s' = s_time s /\ get h' (s_x s') = get h (s_x s) /\ get h' (s_w s') = get h (s_w s) /\
     get h' (s_ll s') = get h (s_ll s) /\ get h' (s_inds s') = get h (s_inds s) /\
     get h' (s_mean s') = get h (s_mean s) /\ get h' (s_var s') = get h (s_var s)) /\
    (forall a, In a (d_addrs d' lm' lv') -> size h <= a < size h').
Proof.
  intros [G1 G2 G3 G4 G5 G6 G7]. unfold serialise. rewrite G1. cbn [copy_dict].
  destruct (copy_rows h lm) as [ha lm'] eqn:Ea. destruct (copy_rows ha lv) as [[T O] lv'] eqn:Eb.
  destruct (copy_rows_spec _ _ _ _ Ea) as (R1 & O1 & L1 & M1 & N1 & B1).
  { intros a Ha. apply G2. right. apply in_or_app. now left. }
  pose proof (grows_size _ _ R1) as Z1.
  destruct (copy_rows_spec _ _ _ _ Eb) as (R2 & O2 & L2 & M2 & N2 & B2).
  { intros a Ha. destruct (G2 a ltac:(right; apply in_or_app; now right)) as [Q _]. unfold size in *. lia. }
  pose proof (grows_size _ _ R2) as Z2. pose proof (grows_trans _ _ _ R1 R2) as R.
  cbn [h_objs] in O2. set (s := d_obj (d_state d)) in *.
  assert (Hold : forall a, In a (fields s) \/ a = d_ll d -> a < List.length T /\ get (Heap T O) a = get h a).
  { intros a Ha. assert (batched b h a) as [Q _] by (destruct Ha as [Ha|Ha]; [now apply G4|apply G2; left; now rewrite Ha]).
    split; [unfold size in *; cbn [h_tens] in *; lia|]. now apply (grows_get _ _ _ R). }
  unfold alloc. cbn [h_tens h_objs]. rewrite <- !app_assoc. cbn [app].
  assert (Hg : forall a l, In a (fields s) \/ a = d_ll d -> get (Heap (T ++ l) O) a = get h a).
  { intros a l Ha. destruct (Hold a Ha). now rewrite get_app_old. }
  rewrite !app_length. cbn [List.length].
  assert (Hx : get (Heap T O) (s_x s) = get h (s_x s)) by (apply Hold; left; cbn; tauto).
  rewrite Hx, !Hg by (left; cbn; tauto).
  set (six := [get h (s_x s); get h (s_w s); get h (s_ll s); get h (s_inds s); get h (s_mean s); get h (s_var s)]).
  assert (Bn : forall a, In a (lm' ++ lv') -> size h <= a < List.length T).
  { intros a Ha. apply in_app_or in Ha. unfold size in *. cbn [h_tens] in *. destruct Ha as [Ha|Ha]; [apply B1 in Ha|apply B2 in Ha]; lia. }
  assert (Mm : map (get (Heap T O)) lm' = map (get h) lm).
  { rewrite <- M1. apply map_ext_in. intros a Ha. apply (grows_get _ _ _ R2). now apply B1. }
  assert (Mv : map (get (Heap T O)) lv' = map (get h) lv).
  { rewrite M2. apply map_ext_in. intros a Ha. apply (grows_get _ _ _ R1). apply G2. right. apply in_or_app. now right. }
  assert (Hb : forall l l0, map (get (Heap T O)) l = map (get h) l0 -> (forall a, In a l0 -> batched b h a) -> forall a, In a l -> List.length (get (Heap T O) a) = b).
  { intros l l0 Em Hb a Ha. assert (Hi : In (get (Heap T O) a) (map (get (Heap T O)) l)) by now apply in_map. rewrite Em in Hi.
    apply in_map_iff in Hi. destruct Hi as (a0 & <- & Ha0). now apply Hb. }
  assert (Hnn : NoDup (lm' ++ lv')).
  { apply nodup_split. split; [exact N1|]. split; [exact N2|]. intros a Ha Hc. apply B1 in Ha. apply B2 in Hc. lia. }
  assert (Lf : forall a, In a (fields s) -> List.length (get h a) = b) by (intros a Ha; now apply G4).
  assert (Hs : size h <= List.length T) by (unfold size in *; cbn [h_tens] in *; lia).
  (* the rest of the proof is the same whether or not the total is the state's own *)
  assert (Fin_ : forall ex tot, (tot = List.length T + 2 /\ ex = [] /\ d_ll d = s_ll s \/ tot = List.length T + 6 /\ ex = [get h (d_ll d)] /\ d_ll d <> s_ll s) ->
    let h' := Heap (T ++ six ++ ex) O in
    let d' := Saved [(deque_key m1 "filter_means", lm'); (deque_key m2 "filter_variances", lv')]
                (SavedState (SObj (s_time s) (List.length T) (List.length T + 1) (List.length T + 2) (List.length T + 3) (List.length T + 4) (List.length T + 5))) tot in
    good_saved b h' d' m1 m2 lm' lv' /\ grows h h' /\ h_objs h' = h_objs h /\
    List.length lm' = List.length lm /\ List.length lv' = List.length lv /\
    map (get h') lm' = map (get h) lm /\ map (get h') lv' = map (get h) lv /\ get h' tot = get h (d_ll d) /\
    (s_time s = s_time s /\ get h' (List.length T) = get h (s_x s) /\ get h' (List.length T + 1) = get h (s_w s) /\
     get h' (List.length T + 2) = get h (s_ll s) /\ get h' (List.length T + 3) = get h (s_inds s) /\
     get h' (List.length T + 4) = get h (s_mean s) /\ get h' (List.length T + 5) = get h (s_var s)) /\
    (forall a, In a (d_addrs d' lm' lv') -> size h <= a < size h')).
  { intros ex tot Htot h' d'.
    assert (Hsz : size h' = List.length T + 6 + List.length ex) by (unfold size, h'; cbn [h_tens]; rewrite app_length; cbn [six app List.length]; lia).
    assert (Hin : forall a, In a (fields (d_obj (d_state d'))) -> exists i, i < 6 /\ a = List.length T + i).
    { unfold d', fields. cbn [d_state d_obj s_x s_w s_ll s_inds s_mean s_var In]. intros a Ha.
      destruct Ha as [<-|[<-|[<-|[<-|[<-|[<-|[]]]]]]]; [exists 0|exists 1|exists 2|exists 3|exists 4|exists 5]; lia. }
    assert (Hsix : forall i, get h' (List.length T + i) = nth i (six ++ ex) []) by (intros i; apply get_app_at).
    assert (E0 : get h' (List.length T) = get h (s_x s)) by (rewrite <- (Nat.add_0_r (List.length T)); now rewrite Hsix).
    assert (Hlow : forall a, a < List.length T -> get h' a = get (Heap T O) a) by (intros a Ha; now apply get_app_old).
    assert (Htl : get h' tot = get h (d_ll d)).
    { destruct Htot as [(-> & -> & E)|(-> & -> & E)]; rewrite Hsix; cbn; [now rewrite E|reflexivity]. }
    assert (Htb : List.length T <= tot < size h').
    { rewrite Hsz. destruct Htot as [(-> & -> & E)|(-> & -> & E)]; cbn; lia. }
    split; [constructor; cbn [d_tt d_ll d']|].
    - reflexivity.
    - intros a [<-|Ha].
      + split; [apply Htb|]. rewrite Htl. apply G2. now left.
      + pose proof (Bn a Ha). split; [unfold size in *; lia|]. rewrite Hlow by lia. apply in_app_or in Ha. destruct Ha as [Ha|Ha].
        * apply (Hb lm' lm Mm); auto. intros c Hc. apply G2. right. apply in_or_app. now left.
        * apply (Hb lv' lv Mv); auto. intros c Hc. apply G2. right. apply in_or_app. now right.
    - constructor; [|exact Hnn]. intros Hc. apply Bn in Hc. lia.
    - intros a Ha. destruct (Hin a Ha) as (i & Hi & ->). split; [unfold size in *; lia|]. rewrite Hsix.
      rewrite app_nth1 by (cbn; lia). do 6 (destruct i as [|i]; [cbn [six nth]; apply Lf; cbn; tauto|]). lia.
    - unfold d', fields. cbn [d_state d_obj s_x s_w s_ll s_inds s_mean s_var]. repeat constructor; cbn [In]; intuition lia.
    - intros a Ha Hc. destruct (Hin a Ha) as (i & Hi & ->). apply Bn in Hc. lia.
    - intros a Ha ->. unfold d'. cbn [d_state d_obj s_ll]. destruct (Hin tot Ha) as (i & Hi & Hi').
      destruct Htot as [(-> & _ & _)|(-> & _ & _)]; [reflexivity|]. lia.
    - split; [eapply grows_trans; [exact R|]; eexists; reflexivity|]. split; [cbn; congruence|].
      split; [exact L1|]. split; [exact L2|].
      split; [rewrite <- Mm; apply map_ext_in; intros a Ha; apply Hlow; apply Bn; apply in_or_app; now left|].
      split; [rewrite <- Mv; apply map_ext_in; intros a Ha; apply Hlow; apply Bn; apply in_or_app; now right|].
      split; [exact Htl|].
      split; [split; [reflexivity|]; split; [exact E0|]; rewrite !Hsix; do 4 (split; [reflexivity|]); reflexivity|].
      intros a Ha. unfold d_addrs in Ha. cbn [d_ll d'] in Ha. apply in_app_or in Ha. destruct Ha as [[<-|Ha]|Ha].
      + lia.
      + apply Bn in Ha. unfold size in *. lia.
      + destruct (Hin a Ha) as (i & Hi & ->). unfold size in *. lia. }
  replace (List.length T + 1 + 1) with (List.length T + 2) by lia.
  destruct (Nat.eqb_spec (d_ll d) (s_ll s)) as [El|El].
  - eexists. eexists. exists lm', lv'. split; [reflexivity|].
    pose proof (Fin_ [] (List.length T + 2) ltac:(left; auto)) as F. rewrite app_nil_r in F. cbv zeta in F. fold s.
    cbn [d_ll d_state d_obj s_time s_x s_w s_ll s_inds s_mean s_var].
    replace (List.length T + 1) with (List.length T + 1) by lia. exact F.
  - eexists. eexists. exists lm', lv'. split; [reflexivity|]. rewrite Hg by now right.
    pose proof (Fin_ [get h (d_ll d)] (List.length T + 6) ltac:(right; auto)) as F. cbv zeta in F.
    cbn [d_ll d_state d_obj s_time s_x s_w s_ll s_inds s_mean s_var]. exact F.
Qed.

(** ** What happens to one result does not touch another one that shares nothing with it *)

Lemma writes_elsewhere mask L : forall h h', foldM (mask_write mask) L h = Ok h' ->
  forall a, ~ In a (map fst L) -> get h' a = get h a.
Proof.
  induction L as [|[d s] L IH]; intros h h' E a Ha; cbn [foldM] in E; [now injection E as <-|].
  destruct (mask_write mask h (d, s)) as [h1|] eqn:E1; [|discriminate]. cbn [bind] in E. cbn [map fst In] in Ha.
  rewrite (IH h1 h' E) by tauto. unfold mask_write in E1. cbn [fst snd] in E1.
  destruct (mask_set (get h d) (get h s) mask); [|discriminate]. cbn [bind] in E1. injection E1 as <-.
  unfold get, set. cbn [h_tens]. destruct (Nat.lt_ge_cases d (List.length (h_tens h))) as [Hd|Hd].
  - rewrite nth_upd by exact Hd. destruct (Nat.eqb_spec a d); [subst; tauto|reflexivity].
  - now rewrite nth_upd_out.
Qed.

Lemma corresponding_left h r o r' a : In a (map fst (corresponding h r r')) -> In a (footprint h r o).
Proof.
  intros H. apply in_map_iff in H. destruct H as ([a' s] & <- & H). now apply (corresponding_places h r o r' 0 a' s).
Qed.

(** Every address after an action is an old one of the same result, or new. *)
Definition confined (h h' : heap) (r r' : result) (o o' : addr) : Prop :=
  size h <= size h' /\ osize h <= osize h' /\
  (forall a, a < size h -> ~ In a (footprint h r o) -> get h' a = get h a) /\
  (forall k, k < osize h -> ~ In k (objects r o) -> obj h' k = obj h k) /\
  (forall a, In a (footprint h' r' o') -> In a (footprint h r o) \/ size h <= a) /\
  (forall k, In k (objects r' o') -> In k (objects r o) \/ osize h <= k).

Lemma act_confined b h r o e h' r' o' : Inv b h r o -> action_ok b e -> act (h, r, o) e = Ok (h', r', o') ->
  confined h h' r r' o o' /\ Inv b h' r' o'.
Proof.
  intros HI Hok E. destruct e as [[c|idx hist]|other mask]; cbn [act action_ok do_op rop_ok] in *.
  - destruct (step_spec b h r o c HI Hok) as (h2 & r2 & o2 & E2 & I2 & Rl & Eo & S2 & O2 & T2 & U2 & K2 & V2 & F2 & F3 & F4 & F5 & F6 & W2 & St).
    rewrite E in E2. injection E2 as <- <- <-. split; [|exact I2]. destruct (iv_two _ _ _ _ HI) as (dm & dv & W).
    assert (Ho' : forall a, In a (fields (obj h' o')) -> In a (footprint h r o) \/ size h <= a).
    { intros a Ha. destruct (F2 a Ha) as [H|[->| ->]]; [now right| |]; left; apply in_footprint; right; exists o; (split; [now left|cbn; tauto]). }
    assert (Hk : forall k, In k (objects r' o') -> k = o' \/ In k (objects r o)).
    { intros k [<-|H]; [now left|]. rewrite St in H. apply in_dq_append in H. destruct H as [H|H]; [right; now right|now left]. }
    split; [lia|]. split; [lia|]. split; [|split; [|split]].
    + intros a Ha Hn. apply U2; [exact Ha|]. intros ->. apply Hn. apply in_footprint. left. now left.
    + intros k Hk1 _. now apply K2.
    + intros a Ha. apply in_footprint in Ha. destruct Ha as [Ha|(k & Hk' & Ha)].
      * destruct (in_dq_append_recorded r r' dm dv o' h' a W Rl (W2 _ _ W) Ha) as [H|[->| ->]].
        -- left. apply in_footprint. now left.
        -- apply Ho'. cbn; tauto.
        -- apply Ho'. cbn; tauto.
      * destruct (Hk k Hk') as [->|Hin]; [auto|]. left. apply in_footprint. right. exists k. split; [exact Hin|].
        rewrite K2 in Ha; [exact Ha|]. apply (iv_objs _ _ _ _ HI k Hin).
    + intros k Hin. destruct (Hk k Hin) as [->|H]; [right; lia|now left].
  - destruct (resample_spec b h r o idx hist HI Hok) as (h2 & E2 & S & O & T & U & K & R).
    rewrite E2 in E. cbn [bind] in E. injection E as <- <- <-. split; [|eapply resample_inv; eassumption].
    split; [exact S|]. split; [lia|]. split; [|split; [|split; [|tauto]]].
    + intros a Ha Hn. apply U; [exact Ha|]. intros Ht. apply Hn. apply in_footprint. left. destruct Ht as [->|[_ Ht]]; [now left|now right].
    + intros k Hk1 Hn. apply K. intros Hc. apply Hn. now right.
    + intros a Ha. apply in_footprint in Ha. destruct Ha as [Ha|(k & Hk & Ha)]; [left; apply in_footprint; now left|].
      destruct (in_dec Nat.eq_dec k (dq_items (r_states r))) as [Hin|Hin].
      * destruct (R k Hin) as (hm & S1 & O1 & Rk & _).
        assert (Eo : obj hm k = obj h k) by (unfold obj; now rewrite O1).
        assert (Hc : In a [s_x (obj h2 k); s_w (obj h2 k); s_inds (obj h2 k); s_mean (obj h2 k); s_var (obj h2 k)] \/ a = s_ll (obj h2 k))
          by (unfold fields in Ha; cbn [In] in *; intuition).
        destruct Hc as [Hc| ->]; [right; apply (rs_new _ _ _ _ Rk) in Hc; lia|].
        left. apply in_footprint. right. exists k. split; [exact Hk|]. rewrite (rs_ll _ _ _ _ Rk), Eo. cbn; tauto.
      * left. apply in_footprint. right. exists k. split; [exact Hk|]. now rewrite <- K.
  - destruct (exchange h r other mask) as [h2|] eqn:E2; [|discriminate]. cbn [bind] in E. injection E as <- <- <-.
    pose proof (exchange_shape _ _ _ _ _ E2) as Sh. split; [|eapply same_shape_inv; eassumption].
    destruct Sh as (S & O & _). rewrite exchange_writes in E2.
    assert (Ob : forall k, obj h2 k = obj h k) by (intros k; unfold obj; now rewrite O).
    split; [lia|]. split; [unfold osize; rewrite O; lia|]. split; [|split; [intros; apply Ob|split; [|tauto]]].
    + intros a _ Hn. apply (writes_elsewhere _ _ _ _ E2). intros Hc. apply Hn. eapply corresponding_left. exact Hc.
    + intros a Ha. left. apply in_footprint. apply in_footprint in Ha. destruct Ha as [Ha|(k & Hk & Ha)]; [now left|].
      right. exists k. split; [exact Hk|]. now rewrite Ob in Ha.
Qed.

Lemma confined_trans h1 h2 h3 r1 r2 r3 o1 o2 o3 : confined h1 h2 r1 r2 o1 o2 -> confined h2 h3 r2 r3 o2 o3 ->
  confined h1 h3 r1 r3 o1 o3.
Proof.
  intros (A1 & A2 & A3 & A4 & A5 & A6) (B1 & B2 & B3 & B4 & B5 & B6).
  split; [lia|]. split; [lia|]. split; [|split; [|split]].
  - intros a Ha Hn. rewrite B3; [now apply A3|lia|]. intros Hc. apply A5 in Hc. destruct Hc; [contradiction|lia].
  - intros k Hk Hn. rewrite B4; [now apply A4|lia|]. intros Hc. apply A6 in Hc. destruct Hc; [contradiction|lia].
  - intros a Ha. apply B5 in Ha. destruct Ha as [Ha|Ha]; [apply A5 in Ha; destruct Ha; [now left|right; lia]|right; lia].
  - intros a Ha. apply B6 in Ha. destruct Ha as [Ha|Ha]; [apply A6 in Ha; destruct Ha; [now left|right; lia]|right; lia].
Qed.
Lemma confined_refl h r o : confined h h r r o o.
Proof. unfold confined. do 2 (split; [lia|]). split; [reflexivity|]. split; [reflexivity|]. split; auto. Qed.

Lemma acts_confined b es : forall h r o h' r' o', Inv b h r o -> Forall (action_ok b) es -> acts (h, r, o) es = Ok (h', r', o') ->
  confined h h' r r' o o' /\ Inv b h' r' o'.
Proof.
  induction es as [|e es IH]; intros h r o h' r' o' HI Hok E; unfold acts in *; cbn [foldM] in E.
  - injection E as <- <- <-. split; [apply confined_refl|exact HI].
  - inversion Hok as [|? ? H1 H2]; subst. destruct (act (h, r, o) e) as [[[h1 r1] o1]|] eqn:E1; [|discriminate]. cbn [bind] in E.
    destruct (act_confined b h r o e h1 r1 o1 HI H1 E1) as [C1 I1].
    destruct (IH h1 r1 o1 h' r' o' I1 H2 E) as [C2 I2]. split; [eapply confined_trans; eassumption|exact I2].
Qed.

Lemma confined_untouched b h h' r r' o o' r2 o2 : confined h h' r r' o o' -> separate h r o r2 o2 -> Inv b h r2 o2 ->
  untouched h h' r2 o2 /\ separate h' r' o' r2 o2.
Proof.
  intros (A1 & A2 & A3 & A4 & A5 & A6) [S1 S2] HI. destruct (inv_below _ _ _ _ HI) as [B1 B2].
  assert (UT : untouched h h' r2 o2).
  { constructor; auto.
    - intros a Ha. apply A3; [now apply B1|]. intros Hc. exact (S1 a Hc Ha).
    - intros k Hk. apply A4; [now apply B2|]. intros Hc. exact (S2 k Hc Hk). }
  split; [exact UT|]. split.
  - intros a Ha Hc. assert (Hc' : In a (footprint h r2 o2)).
    { apply in_footprint. apply in_footprint in Hc. destruct Hc as [Hc|(k & Hk & Hc)]; [now left|]. right. exists k.
      split; [exact Hk|]. now rewrite (ut_objs _ _ _ _ UT k Hk) in Hc. }
    apply A5 in Ha. destruct Ha as [Ha|Ha]; [exact (S1 a Ha Hc')|]. apply B1 in Hc'. lia.
  - intros k Hk Hc. apply A6 in Hk. destruct Hk as [Hk|Hk]; [exact (S2 k Hk Hc)|]. apply B2 in Hc. lia.
Qed.
