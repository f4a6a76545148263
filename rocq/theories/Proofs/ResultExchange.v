(** Lemmas about exchanging parts of filter results. *)
From Coq Require Import Reals List Bool Arith ZArith String Lia.
From Verif.Spec Require ContainerSpec.
From Verif.Model Require Import Base Xf Container Result.
From Verif.Spec Require Import ResultSpec.
From Verif.Proofs Require Import ResultProofs ResultReach ResultRun.
Import ListNotations.
Local Open Scope list_scope.
Local Open Scope nat_scope.

Lemma mask_set_ok t u mask : List.length mask = List.length t -> List.length u = List.length t ->
  mask_set t u mask = Ok (merge mask t u).
Proof. intros A B. unfold mask_set. now rewrite A, B, !Nat.eqb_refl. Qed.

Lemma nth_error_merge mask t u j : List.length mask = List.length t -> List.length u = List.length t ->
  nth_error (merge mask t u) j = nth_error (if nth j mask false then u else t) j.
Proof.
  revert mask u j. induction t as [|x t IH]; intros [|m mask] [|y u] j E1 E2; try discriminate.
  - destruct j; reflexivity.
  - destruct j as [|j]; cbn [merge combine map nth_error nth fst snd].
    + destruct m; reflexivity.
    + injection E1 as E1. injection E2 as E2. pose proof (IH mask u j E1 E2) as H. unfold merge in H. rewrite H.
      destruct (nth j mask false); reflexivity.
Qed.

Lemma merge_merges mask t u : List.length mask = List.length t -> List.length u = List.length t ->
  merges mask t u (merge mask t u).
Proof. intros A B. split; [now apply length_merge|]. intros j _. now apply nth_error_merge. Qed.

(** Writing twice: the second wins where the mask is set. *)
Lemma merges_again mask t u u' v : List.length mask = List.length t -> List.length u = List.length t ->
  List.length u' = List.length t -> agree_on mask u u' -> merges mask t u v -> merges mask t u (merge mask v u').
Proof.
  intros A B C Hag [L M]. split.
  - rewrite length_merge; congruence.
  - intros j Hj. rewrite nth_error_merge by congruence. specialize (M j Hj).
    destruct (nth j mask false) eqn:E.
    + symmetry. now apply Hag.
    + exact M.
Qed.

(** A sequence of writes whose sources are not written to. *)
Lemma writes_spec b mask L : List.length mask = b -> forall h,
  (forall a s, In (a, s) L -> batched b h a /\ batched b h s) ->
  (forall a s, In (a, s) L -> ~ In s (map fst L)) ->
  exists h', foldM (mask_write mask) L h = Ok h' /\ same_shape h h' /\
    (forall a, ~ In a (map fst L) -> get h' a = get h a) /\
    (forall a s, In (a, s) L -> (forall s', In (a, s') L -> agree_on mask (get h s) (get h s')) ->
       merges mask (get h a) (get h s) (get h' a)).
Proof.
  intros Lm. induction L as [|[d s0] L IH] using rev_ind; intros h HB HS.
  - exists h. cbn. split; [reflexivity|]. split; [apply same_shape_refl|]. split; [reflexivity|]. intros a s [].
  - destruct (IH h) as (h1 & E1 & Sh & Un & Me).
    + intros a s Hin. apply HB. apply in_or_app. now left.
    + intros a s Hin Hc. apply (HS a s); [apply in_or_app; now left|]. rewrite map_app. apply in_or_app. now left.
    + assert (Hd : In (d, s0) (L ++ [(d, s0)])) by (apply in_or_app; right; now left).
      destruct (HB d s0 Hd) as [[Bd1 Bd2] [Bs1 Bs2]]. destruct Sh as (Z1 & Z2 & Z3).
      assert (Hs0 : get h1 s0 = get h s0).
      { apply Un. intros Hc. apply (HS d s0 Hd). rewrite map_app. apply in_or_app. now left. }
      assert (E2 : mask_write mask h1 (d, s0) = Ok (set h1 d (merge mask (get h1 d) (get h s0)))).
      { unfold mask_write. cbn [fst snd]. rewrite Hs0, mask_set_ok; [reflexivity|now rewrite Z3, Lm|now rewrite Z3, Bs2]. }
      exists (set h1 d (merge mask (get h1 d) (get h s0))).
      assert (Ef : forall l g g', foldM (mask_write mask) l g = Ok g' ->
                foldM (mask_write mask) (l ++ [(d, s0)]) g = mask_write mask g' (d, s0)).
      { induction l as [|x l IHl]; intros g g' E; cbn [foldM app] in *.
        - injection E as ->. now destruct (mask_write mask g' (d, s0)).
        - destruct (mask_write mask g x); [|discriminate]. cbn [bind] in *. now apply IHl. }
      split; [rewrite (Ef _ _ _ E1); exact E2|].
      split; [eapply same_shape_trans; [split; [exact Z1|split; [exact Z2|exact Z3]]|eapply mask_write_shape; exact E2]|].
      assert (Hdlt : d < List.length (h_tens h1)) by (unfold size in Z1; lia).
      split.
      * intros a Ha. rewrite map_app, in_app_iff in Ha. cbn in Ha. rewrite get_set by exact Hdlt.
        destruct (Nat.eqb_spec a d) as [->|_]; [tauto|]. apply Un. tauto.
      * intros a s Hin Hag. rewrite get_set by exact Hdlt.
        destruct (HB a s Hin) as [[Ba1 Ba2] [Bt1 Bt2]].
        destruct (Nat.eqb_spec a d) as [->|Hne].
        -- destruct (in_dec Nat.eq_dec d (map fst L)) as [Hin'|Hin'].
           ++ apply in_map_iff in Hin'. destruct Hin' as ([d' s1] & Ed & Hin'). cbn in Ed. subst d'.
              assert (Hag1 : forall s', In (d, s') L -> agree_on mask (get h s1) (get h s')).
              { intros s' Hs' j Hj. rewrite <- (Hag s1), <- (Hag s'); auto; apply in_or_app; now left. }
              specialize (Me d s1 Hin' Hag1).
              assert (Hag2 : agree_on mask (get h s) (get h s0)) by (apply Hag; exact Hd).
              destruct (HB d s1 ltac:(apply in_or_app; now left)) as [_ [Bu1 Bu2]].
              apply merges_again; [congruence|congruence|congruence|exact Hag2|].
              destruct Me as [Ml Mm]. split; [exact Ml|]. intros j Hj. rewrite (Mm j Hj).
              destruct (nth j mask false) eqn:Ej; [|reflexivity]. symmetry. apply Hag; [|exact Ej].
              apply in_or_app. now left.
           ++ rewrite (Un d Hin'). apply in_app_or in Hin. destruct Hin as [Hin|[Hin|[]]].
              ** exfalso. apply Hin'. apply in_map_iff. now exists (d, s).
              ** injection Hin as <-. apply merge_merges; congruence.
        -- apply in_app_or in Hin. destruct Hin as [Hin|[Hin|[]]]; [|injection Hin as -> ->; contradiction].
           apply Me; [exact Hin|]. intros s' Hs'. apply Hag. apply in_or_app. now left.
Qed.

Lemma foldM_app {A B} (f : B -> A -> res B) l1 l2 : forall s,
  foldM f (l1 ++ l2) s = bind (foldM f l1 s) (foldM f l2).
Proof. induction l1 as [|x l1 IH]; intros s; cbn [foldM app bind]; [reflexivity|]. destruct (f s x); cbn [bind]; auto. Qed.

(** The whole exchange is one sequence of writes. *)
Lemma state_exchange_writes mask ks : forall h h0, h_objs h = h_objs h0 ->
  foldM (state_exchange mask) ks h
  = foldM (mask_write mask) (flat_map (fun p : addr * addr => combine (fields (obj h0 (fst p))) (fields (obj h0 (snd p)))) ks) h.
Proof.
  induction ks as [|[k k'] ks IH]; intros h h0 E; cbn [foldM flat_map]; [reflexivity|].
  rewrite foldM_app.
  assert (Es : state_exchange mask h (k, k') = foldM (mask_write mask) (combine (fields (obj h0 k)) (fields (obj h0 k'))) h).
  { unfold state_exchange, obj. cbn [fst snd]. rewrite E. reflexivity. }
  rewrite Es. cbn [fst snd].
  destruct (foldM (mask_write mask) (combine (fields (obj h0 k)) (fields (obj h0 k'))) h) as [h1|] eqn:E1; [|reflexivity].
  cbn [bind]. apply IH. destruct (foldM_shape _ _ (mask_write_shape mask) _ _ E1) as (_ & B & _). congruence.
Qed.

Lemma exchange_writes h r other mask : exchange h r other mask = foldM (mask_write mask) (corresponding h r other) h.
Proof.
  unfold exchange, corresponding. cbn [foldM].
  destruct (mask_write mask h (r_ll r, r_ll other)) as [h1|] eqn:E1; [|reflexivity]. cbn [bind].
  rewrite foldM_app.
  destruct (foldM (mask_write mask) _ h1) as [h2|] eqn:E2; [|reflexivity]. cbn [bind].
  apply state_exchange_writes.
  destruct (mask_write_shape _ _ _ _ E1) as (_ & B1 & _).
  destruct (foldM_shape _ _ (mask_write_shape mask) _ _ E2) as (_ & B2 & _). congruence.
Qed.

(** Places of the pairs. *)
Lemma in_combine_concat {A} (x y : A) l l' :
  In (x, y) (List.concat (map (fun p : list A * list A => combine (fst p) (snd p)) (combine l l'))) ->
  In x (List.concat l) /\ In y (List.concat l').
Proof.
  rewrite in_concat. intros (c & Hc & Hin). apply in_map_iff in Hc. destruct Hc as ([u v] & <- & Huv).
  cbn in Hin. split; apply in_concat.
  - exists u. split; [now apply (in_combine_l l l' u v)|]. now apply (in_combine_l u v x y).
  - exists v. split; [now apply (in_combine_r l l' u v)|]. now apply (in_combine_r u v x y).
Qed.

Lemma corresponding_places h r o r' o' a s : In (a, s) (corresponding h r r') ->
  In a (footprint h r o) /\ In s (footprint h r' o').
Proof.
  unfold corresponding, footprint, recorded, moments, objects. intros [H|H].
  - injection H as <- <-. split; now left.
  - apply in_app_or in H. destruct H as [H|H].
    + apply in_combine_concat in H. destruct H as [H1 H2].
      split; right; apply in_or_app; left; assumption.
    + apply in_flat_map in H. destruct H as ([k k'] & Hk & H). cbn [fst snd] in H.
      split; apply in_or_app; right; apply in_flat_map.
      * exists k. split; [right; now apply (in_combine_l _ _ k k') in Hk|]. now apply in_combine_l in H.
      * exists k'. split; [right; now apply (in_combine_r _ _ k k') in Hk|]. now apply in_combine_r in H.
Qed.

Lemma footprint_batched b h r o a : Inv b h r o -> In a (footprint h r o) -> batched b h a.
Proof.
  intros HI. unfold footprint. rewrite in_app_iff, in_flat_map. intros [H|(k & Hk & H)].
  - now apply (iv_rec _ _ _ _ HI).
  - now apply (iv_objs _ _ _ _ HI k Hk).
Qed.

Lemma exchange_spec b h r o r' o' mask : Inv b h r o -> Inv b h r' o' -> separate h r o r' o' -> List.length mask = b ->
  exists h', exchange h r r' mask = Ok h' /\ same_shape h h' /\
    (forall a, ~ In a (footprint h r o) -> get h' a = get h a) /\
    (forall a s, In (a, s) (corresponding h r r') ->
       (forall s', In (a, s') (corresponding h r r') -> agree_on mask (get h s) (get h s')) ->
       merges mask (get h a) (get h s) (get h' a)).
Proof.
  intros HI HI' [Hsep _] Hm. rewrite exchange_writes.
  destruct (writes_spec b mask (corresponding h r r') Hm h) as (h' & E & Sh & Un & Me).
  - intros a s Hin. destruct (corresponding_places h r o r' o' a s Hin) as [A B].
    split; [exact (footprint_batched b h r o a HI A)|exact (footprint_batched b h r' o' s HI' B)].
  - intros a s Hin Hc. apply in_map_iff in Hc. destruct Hc as ([s1 s2] & Es & Hc). cbn in Es. subst s1.
    destruct (corresponding_places h r o r' o' a s Hin) as [_ B].
    destruct (corresponding_places h r o r' o' s s2 Hc) as [A _]. exact (Hsep s A B).
  - exists h'. split; [exact E|]. split; [exact Sh|]. split; [|exact Me].
    intros a Ha. apply Un. intros Hc. apply in_map_iff in Hc. destruct Hc as ([a1 s] & Ea & Hc). cbn in Ea. subst a1.
    apply Ha. now apply (corresponding_places h r o r' o' a s).
Qed.

(** ** Only the latest state is recorded *)

Definition at_end (l : list addr) (a : addr) : Prop := forall i, nth_error l i = Some a -> S i = List.length l.

Lemma at_end_absent l a : ~ In a l -> at_end l a.
Proof. intros H i E. apply nth_error_In in E. contradiction. Qed.
Lemma at_end_app l a : ~ In a l -> at_end (l ++ [a]) a.
Proof.
  intros H i E. rewrite app_length. cbn. destruct (Nat.lt_ge_cases i (List.length l)) as [Hi|Hi].
  - rewrite nth_error_app1 in E by exact Hi. apply nth_error_In in E. contradiction.
  - rewrite nth_error_app2 in E by exact Hi. destruct (i - List.length l) as [|k] eqn:Ek; [lia|].
    cbn in E. destruct k; discriminate.
Qed.
Lemma at_end_tl l a : at_end l a -> at_end (tl l) a.
Proof. intros H i E. destruct l as [|x l]; [destruct i; discriminate|]. specialize (H (S i) E). cbn in *. lia. Qed.
Lemma at_end_dq (d : dq addr) a : ~ In a (dq_items d) -> at_end (dq_items (dq_append d a)) a.
Proof. intros H. destruct (dq_append_items d a) as [-> | ->]; [|apply at_end_tl]; now apply at_end_app. Qed.

Record latest_only (h : heap) (r : result) (o : addr) : Prop := {
  lo_items : dq_items (r_states r) = [o];
  lo_mean : at_end (means r) (s_mean (obj h o));
  lo_var : at_end (vars r) (s_var (obj h o))
}.

Lemma dq_append_one {A} (d : dq A) x : dq_max d = Some 1 -> List.length (dq_items d) <= 1 -> dq_items (dq_append d x) = [x].
Proof.
  intros E L. unfold dq_append. rewrite E. destruct (dq_items d) as [|y [|z l]]; cbn in *; [reflexivity|reflexivity|lia].
Qed.

Lemma reachable_latest b h r o : reachable b h r o -> dq_max (r_states r) = Some 1 -> latest_only h r o.
Proof.
  induction 1 as [h time x w ll inds mean var h1 o rs rm h2 r L1 L2 L3 L4 L5 L6 Ef Ei
                 |h r o e h' r' o' HR IH Hok E|h r o other mask h' HR IH E|h r o h' HR IH U]; intros Hmax.
  - destruct (fresh_state_spec b _ _ _ _ _ _ _ _ _ _ L1 L2 L3 L4 L5 L6 Ef) as (G & Eo & Os & _ & B & _ & N & _).
    destruct (init_result_inv _ _ _ _ _ Ei) as (dm0 & ds0 & E1 & E2 & _).
    destruct (init_spec b h1 o rs rm ltac:(lia) B N (make_dequeue_valid _ _ E2) (make_dequeue_valid _ _ E1))
      as (h3 & r3 & dm & ds & Ei' & I & Rl & Em & Es & S2 & O2 & T2 & U2 & W & St).
    rewrite Ei in Ei'. injection Ei' as <- <-. pose proof (make_dequeue_items _ _ Em) as Im. pose proof (make_dequeue_items _ _ Es) as Is.
    assert (Ob : obj h2 o = obj h1 o) by (unfold obj; now rewrite O2).
    constructor.
    + rewrite St. rewrite St, dq_append_max in Hmax. apply dq_append_one; [exact Hmax|]. rewrite Is. cbn. lia.
    + rewrite (with_means _ _ _ W), Ob. apply at_end_dq. rewrite Im. intros [].
    + rewrite (with_vars _ _ _ W), Ob. apply at_end_dq. rewrite Im. intros [].
  - pose proof (reachable_inv _ _ _ _ HR) as HI. destruct e as [c|idx hist]; cbn [do_op rop_ok] in *.
    + destruct (step_spec b h r o c HI Hok) as (h2 & r2 & o2 & E2 & I2 & Rl & Eo & S2 & O2 & T2 & U2 & K2 & V2 & F2 & F3 & F4 & F5 & F6 & W2 & St).
      rewrite E in E2. injection E2 as <- <- <-. rewrite St, dq_append_max in Hmax. specialize (IH Hmax).
      destruct (iv_two _ _ _ _ HI) as (dm & dv & W). pose proof (W2 _ _ W) as W'.
      constructor.
      * rewrite St. apply dq_append_one; [exact Hmax|]. rewrite (lo_items _ _ _ IH). cbn. lia.
      * rewrite (with_means _ _ _ W'). apply at_end_dq. intros Hc. rewrite <- (with_means _ _ _ W) in Hc.
        apply in_means in Hc; [|now exists dm, dv]. pose proof (recorded_lt _ _ _ _ _ HI Hc). lia.
      * rewrite (with_vars _ _ _ W'). apply at_end_dq. intros Hc. rewrite <- (with_vars _ _ _ W) in Hc.
        apply in_vars in Hc; [|now exists dm, dv]. pose proof (recorded_lt _ _ _ _ _ HI Hc). lia.
    + destruct (resample_spec b h r o idx hist HI Hok) as (h2 & E2 & S & O & T & U & K & R).
      rewrite E2 in E. cbn [bind] in E. injection E as <- <- <-. specialize (IH Hmax).
      destruct (R o) as (hm & S1 & O1 & Rk & _); [rewrite (lo_items _ _ _ IH); now left|].
      constructor; [apply (lo_items _ _ _ IH)| |]; apply at_end_absent; intros Hc.
      * apply in_means in Hc; [|apply HI]. pose proof (recorded_lt _ _ _ _ _ HI Hc).
        pose proof (rs_new _ _ _ _ Rk (s_mean (obj h2 o)) ltac:(cbn; tauto)). lia.
      * apply in_vars in Hc; [|apply HI]. pose proof (recorded_lt _ _ _ _ _ HI Hc).
        pose proof (rs_new _ _ _ _ Rk (s_var (obj h2 o)) ltac:(cbn; tauto)). lia.
  - specialize (IH Hmax). destruct (exchange_shape _ _ _ _ _ E) as (_ & O & _).
    assert (Ob : obj h' o = obj h o) by (unfold obj; now rewrite O). destruct IH as [A B C]. now constructor; rewrite ?Ob.
  - specialize (IH Hmax). pose proof (ut_objs _ _ _ _ U o (or_introl eq_refl)) as Ob. destruct IH as [A B C]. now constructor; rewrite ?Ob.
Qed.

(** ** When the pairs are consistent *)

Lemma combine_functional {A B} (l : list A) : forall (l' : list B) a s s', NoDup l ->
  In (a, s) (combine l l') -> In (a, s') (combine l l') -> s = s'.
Proof.
  induction l as [|x l IH]; intros [|y l'] a s s' N H1 H2; try contradiction. apply NoDup_cons_iff in N. destruct N as [N1 N2].
  destruct H1 as [H1|H1], H2 as [H2|H2].
  - congruence.
  - injection H1 as -> ->. apply in_combine_l in H2. contradiction.
  - injection H2 as -> ->. apply in_combine_l in H1. contradiction.
  - now apply (IH l' a s s').
Qed.

Lemma combine_at_end l a : forall l' s, at_end l a -> List.length l = List.length l' -> In (a, s) (combine l l') -> s = List.last l' 0.
Proof.
  intros l' s H L Hin. apply In_nth_error in Hin. destruct Hin as [i Hi].
  assert (Hab : nth_error l i = Some a /\ nth_error l' i = Some s).
  { clear H. revert l' L i Hi. induction l as [|x l IH]; intros [|y l'] L i Hi; try discriminate; [destruct i; discriminate|].
    destruct i as [|i]; cbn in *; [injection Hi as <- <-; auto|]. apply IH; [lia|exact Hi]. }
  destruct Hab as [Ha Hs]. specialize (H i Ha). rewrite L in H.
  destruct (exists_last (l := l')) as (m & z & ->); [intros ->; destruct i; discriminate|].
  rewrite last_last. rewrite app_length in H. cbn in H. rewrite nth_error_app2 in Hs by lia.
  replace (i - List.length m) with 0 in Hs by lia. now injection Hs as <-.
Qed.

Lemma corresponding_latest h r r' dm dv dm' dv' o o' :
  with_deques r dm dv -> with_deques r' dm' dv' -> dq_items (r_states r) = [o] -> dq_items (r_states r') = [o'] ->
  corresponding h r r' = (r_ll r, r_ll r') :: combine (dq_items dm) (dq_items dm') ++ combine (dq_items dv) (dq_items dv')
     ++ combine (fields (obj h o)) (fields (obj h o')).
Proof.
  intros W W' E E'. unfold corresponding, cvalues. rewrite W, W', E, E'.
  cbn [c_tuples c_deques map app combine List.concat flat_map fst snd od_values]. now rewrite !app_nil_r, <- app_assoc.
Qed.

Definition coherent (h : heap) (r : result) (o : addr) : Prop :=
  (means r <> [] -> get h (List.last (means r) 0) = get h (s_mean (obj h o))) /\
  (vars r <> [] -> get h (List.last (vars r) 0) = get h (s_var (obj h o))).

Lemma aligned_latest b h r o r' o' mask : Inv b h r o -> Inv b h r' o' -> latest_only h r o -> latest_only h r' o' ->
  s_ll (obj h o) <> r_ll r -> coherent h r' o' ->
  List.length (means r) = List.length (means r') -> List.length (vars r) = List.length (vars r') ->
  aligned h mask r r'.
Proof.
  intros HI HI' LO LO' Hll [C1 C2] LM LV.
  destruct (iv_two _ _ _ _ HI) as (dm & dv & W). destruct (iv_two _ _ _ _ HI') as (dm' & dv' & W').
  pose proof (iv_nodup _ _ _ _ HI) as N. rewrite (with_recorded _ _ _ W) in N.
  apply NoDup_cons_iff in N. destruct N as [N0 N]. apply nodup_split in N. destruct N as (N1 & N2 & N3).
  pose proof (iv_apart _ _ _ _ HI o (or_introl eq_refl)) as [A1 A2 A3 A4 A5 A6 A7].
  destruct LO as [I1 E1 E2]. destruct LO' as [I1' E1' E2'].
  unfold recorded in A1, A2, A3. rewrite (moments_split r ltac:(now exists dm, dv)) in *.
  unfold aligned. rewrite (corresponding_latest h r r' dm dv dm' dv' o o' W W' I1 I1').
  rewrite (with_means _ _ _ W), (with_vars _ _ _ W), (with_means _ _ _ W'), (with_vars _ _ _ W') in *.
  assert (Hsym : forall a s (s' : addr), (In (a, s) ((r_ll r, r_ll r') :: combine (dq_items dm) (dq_items dm') ++ combine (dq_items dv) (dq_items dv') ++ combine (fields (obj h o)) (fields (obj h o'))) ->
     forall P : Prop, ((a = r_ll r /\ s = r_ll r') -> P) -> (In (a, s) (combine (dq_items dm) (dq_items dm')) -> P) ->
       (In (a, s) (combine (dq_items dv) (dq_items dv')) -> P) -> (In (a, s) (combine (fields (obj h o)) (fields (obj h o'))) -> P) -> P)).
  { intros a s _ Hin P P1 P2 P3 P4. cbn [In] in Hin. rewrite !in_app_iff in Hin. destruct Hin as [Hin|[Hin|[Hin|Hin]]]; auto.
    injection Hin as <- <-. auto. }
  (* each kind of place meets only itself, or a state's moment its recorded copy *)
  assert (Kf : forall a s, In (a, s) (combine (fields (obj h o)) (fields (obj h o'))) ->
     a <> r_ll r /\ (In a (dq_items dm) -> a = s_mean (obj h o) /\ s = s_mean (obj h o')) /\
     (In a (dq_items dv) -> a = s_var (obj h o) /\ s = s_var (obj h o'))).
  { intros a s Hin. cbn [fields combine In] in Hin. cbn [In] in A1, A2, A3. rewrite in_app_iff in A1, A2, A3, A4.
    destruct Hin as [Hin|[Hin|[Hin|[Hin|[Hin|[Hin|[]]]]]]]; injection Hin as <- <-; repeat split; try tauto; try (intuition congruence). }
  assert (Lm : forall a s, In (a, s) (combine (dq_items dm) (dq_items dm')) -> a = s_mean (obj h o) ->
     get h s = get h (s_mean (obj h o'))).
  { intros a s Hin ->. rewrite (combine_at_end _ _ _ _ E1 LM Hin). apply C1. intros Hc. rewrite Hc in Hin. now apply in_combine_r in Hin. }
  assert (Lv : forall a s, In (a, s) (combine (dq_items dv) (dq_items dv')) -> a = s_var (obj h o) ->
     get h s = get h (s_var (obj h o'))).
  { intros a s Hin ->. rewrite (combine_at_end _ _ _ _ E2 LV Hin). apply C2. intros Hc. rewrite Hc in Hin. now apply in_combine_r in Hin. }
  intros a s s' H1 H2. assert (Eg : get h s = get h s'); [|now intros j _; rewrite Eg].
  rewrite in_app_iff in N0.
  apply (Hsym a s s' H1); intros P1; apply (Hsym a s' s H2); intros P2.
  - destruct P1, P2. congruence.
  - destruct P1 as [-> _]. apply in_combine_l in P2. tauto.
  - destruct P1 as [-> _]. apply in_combine_l in P2. tauto.
  - destruct P1 as [-> _]. destruct (Kf _ _ P2) as [Hc _]. congruence.
  - destruct P2 as [-> _]. apply in_combine_l in P1. tauto.
  - f_equal. exact (combine_functional _ _ _ _ _ N1 P1 P2).
  - apply in_combine_l in P1, P2. now apply N3 in P1.
  - destruct (Kf _ _ P2) as (_ & Hc & _). destruct (Hc (in_combine_l _ _ _ _ P1)) as [Ha ->]. now apply (Lm a s).
  - destruct P2 as [-> _]. apply in_combine_l in P1. tauto.
  - apply in_combine_l in P1, P2. now apply N3 in P2.
  - f_equal. exact (combine_functional _ _ _ _ _ N2 P1 P2).
  - destruct (Kf _ _ P2) as (_ & _ & Hc). destruct (Hc (in_combine_l _ _ _ _ P1)) as [Ha ->]. now apply (Lv a s).
  - destruct P2 as [-> _]. destruct (Kf _ _ P1) as [Hc _]. congruence.
  - destruct (Kf _ _ P1) as (_ & Hc & _). destruct (Hc (in_combine_l _ _ _ _ P2)) as [Ha ->]. symmetry. now apply (Lm a s').
  - destruct (Kf _ _ P1) as (_ & _ & Hc). destruct (Hc (in_combine_l _ _ _ _ P2)) as [Ha ->]. symmetry. now apply (Lv a s').
  - f_equal. exact (combine_functional _ _ _ _ _ A7 P1 P2).
Qed.

(** ** A run started later shares nothing with earlier data *)

Definition above (n m : nat) (h : heap) (r : result) (o : addr) : Prop :=
  (forall a, In a (footprint h r o) -> n <= a) /\ (forall k, In k (objects r o) -> m <= k).
Definition below (n m : nat) (h : heap) (r : result) (o : addr) : Prop :=
  (forall a, In a (footprint h r o) -> a < n) /\ (forall k, In k (objects r o) -> k < m).

Lemma inv_below b h r o : Inv b h r o -> below (size h) (osize h) h r o.
Proof.
  intros HI. split.
  - intros a Ha. destruct (footprint_batched _ _ _ _ _ HI Ha). assumption.
  - intros k Hk. apply (iv_objs _ _ _ _ HI k Hk).
Qed.

Lemma in_footprint h r o a : In a (footprint h r o) <->
  In a (recorded r) \/ exists k, In k (objects r o) /\ In a (fields (obj h k)).
Proof. unfold footprint. now rewrite in_app_iff, in_flat_map. Qed.

Lemma in_dq_append_recorded r r' dm dv o' h' a : with_deques r dm dv -> r_ll r' = r_ll r ->
  with_deques r' (dq_append dm (s_mean (obj h' o'))) (dq_append dv (s_var (obj h' o'))) ->
  In a (recorded r') -> In a (recorded r) \/ a = s_mean (obj h' o') \/ a = s_var (obj h' o').
Proof.
  intros W El W'. rewrite (with_recorded _ _ _ W), (with_recorded _ _ _ W'), El. cbn [In]. rewrite !in_app_iff.
  intros [->|[H|H]]; [tauto| |]; apply in_dq_append in H; tauto.
Qed.

Lemma step_above b n m h r o c h' r' o' : Inv b h r o -> content_ok b c -> n <= size h -> m <= osize h ->
  above n m h r o -> step h r o c = Ok (h', r', o') -> above n m h' r' o'.
Proof.
  intros HI Hc Hn Hm [A B] E.
  destruct (step_spec b h r o c HI Hc) as (h2 & r2 & o2 & E2 & I2 & Rl & Eo & S2 & O2 & T2 & U2 & K2 & V2 & F2 & F3 & F4 & F5 & F6 & W2 & St).
  rewrite E in E2. injection E2 as <- <- <-. destruct (iv_two _ _ _ _ HI) as (dm & dv & W).
  assert (Ho : forall a, In a (fields (obj h o)) -> n <= a).
  { intros a Ha. apply A. apply in_footprint. right. exists o. split; [now left|exact Ha]. }
  assert (Ho' : forall a, In a (fields (obj h' o')) -> n <= a).
  { intros a Ha. destruct (F2 a Ha) as [H|[->| ->]]; [lia|apply Ho; cbn; tauto|apply Ho; cbn; tauto]. }
  assert (Hk : forall k, In k (objects r' o') -> k = o' \/ In k (objects r o)).
  { intros k [<-|H]; [now left|]. rewrite St in H. apply in_dq_append in H. destruct H as [H|H]; [right; now right|now left]. }
  split.
  - intros a Ha. apply in_footprint in Ha. destruct Ha as [Ha|(k & Hk' & Ha)].
    + destruct (in_dq_append_recorded r r' dm dv o' h' a W Rl (W2 _ _ W) Ha) as [H|[->| ->]].
      * apply A. apply in_footprint. now left.
      * apply Ho'. cbn; tauto.
      * apply Ho'. cbn; tauto.
    + destruct (Hk k Hk') as [->|Hin]; [auto|]. apply A. apply in_footprint. right. exists k. split; [exact Hin|].
      rewrite K2 in Ha; [exact Ha|]. apply (iv_objs _ _ _ _ HI k Hin).
  - intros k Hin. destruct (Hk k Hin) as [->|H]; [lia|auto].
Qed.

Lemma step_latest b h r o c h' r' o' : Inv b h r o -> content_ok b c -> step h r o c = Ok (h', r', o') ->
  coherent h' r' o' /\ s_ll (obj h' o') <> r_ll r'.
Proof.
  intros HI Hc E.
  destruct (step_spec b h r o c HI Hc) as (h2 & r2 & o2 & E2 & I2 & Rl & Eo & S2 & O2 & T2 & U2 & K2 & V2 & F2 & F3 & F4 & F5 & F6 & W2 & St).
  rewrite E in E2. injection E2 as <- <- <-. destruct (iv_two _ _ _ _ HI) as (dm & dv & W). pose proof (W2 _ _ W) as W'.
  assert (Hl : forall (d : dq addr) x, dq_items (dq_append d x) <> [] -> List.last (dq_items (dq_append d x)) 0 = x).
  { intros d x Hne. destruct (dq_append_items d x) as [Ed|Ed]; rewrite Ed in *; [apply last_last|].
    destruct (dq_items d) as [|y l]; [cbn in Hne; congruence|]. cbn. apply last_last. }
  split; [split|].
  - rewrite (with_means _ _ _ W'). intros Hne. now rewrite Hl.
  - rewrite (with_vars _ _ _ W'). intros Hne. now rewrite Hl.
  - rewrite Rl. pose proof (recorded_lt _ _ _ _ (r_ll r) HI (or_introl eq_refl)). lia.
Qed.

Lemma steps_above b n m cs : forall h r o h' r' o', Inv b h r o -> Forall (content_ok b) cs -> n <= size h -> m <= osize h ->
  above n m h r o -> steps h r o cs = Ok (h', r', o') ->
  above n m h' r' o' /\ (cs <> [] -> coherent h' r' o' /\ s_ll (obj h' o') <> r_ll r').
Proof.
  induction cs as [|c cs IH]; intros h r o h' r' o' HI Hc Hn Hm HA E; unfold steps in *; cbn [foldM] in E.
  - injection E as <- <- <-. split; [exact HA|congruence].
  - inversion Hc as [|? ? Hc1 Hc2]; subst.
    destruct (step_spec b h r o c HI Hc1) as (h2 & r2 & o2 & E2 & I2 & Rl & Eo & S2 & O2 & _).
    rewrite E2 in E. cbn [bind] in E.
    pose proof (step_above b n m h r o c h2 r2 o2 HI Hc1 Hn Hm HA E2) as HA2.
    pose proof (step_latest b h r o c h2 r2 o2 HI Hc1 E2) as HL.
    destruct (IH h2 r2 o2 h' r' o' I2 Hc2 ltac:(lia) ltac:(lia) HA2 E) as [A B]. split; [exact A|]. intros _.
    destruct cs as [|c' cs]; [|apply B; discriminate]. cbn [foldM] in E. now injection E as <- <- <-.
Qed.

Lemma above_below_separate n m h r o r' o' : below n m h r o -> above n m h r' o' -> separate h r o r' o'.
Proof.
  intros [A B] [A' B']. split.
  - intros a H H'. apply A in H. apply A' in H'. lia.
  - intros k H H'. apply B in H. apply B' in H'. lia.
Qed.

Lemma reachable_steps b cs : forall h r o h' r' o', reachable b h r o -> Forall (content_ok b) cs ->
  steps h r o cs = Ok (h', r', o') -> reachable b h' r' o'.
Proof.
  induction cs as [|c cs IH]; intros h r o h' r' o' HR Hc E; unfold steps in *; cbn [foldM] in E.
  - now injection E as <- <- <-.
  - inversion Hc as [|? ? Hc1 Hc2]; subst. destruct (step h r o c) as [[[h2 r2] o2]|] eqn:E2; [|discriminate]. cbn [bind] in E.
    apply (IH h2 r2 o2); auto. eapply reach_op with (e := RStep c); [exact HR|exact Hc1|exact E2].
Qed.

(** A complete new run beside an existing result. *)
Lemma new_run b h r o time x w ll inds mean var rs rm cs : Inv b h r o ->
  List.length x = b -> List.length w = b -> List.length ll = b -> List.length inds = b -> List.length mean = b -> List.length var = b ->
  valid_setting rs -> valid_setting rm -> Forall (content_ok b) cs ->
  exists h1 o0 h2 r2 h3 r3 o3,
    fresh_state h time x w ll inds mean var = (h1, o0) /\ init_result h1 o0 rs rm = Ok (h2, r2) /\
    steps h2 r2 o0 cs = Ok (h3, r3, o3) /\
    Inv b h3 r3 o3 /\ reachable b h3 r3 o3 /\ untouched h h3 r o /\ separate h3 r o r3 o3 /\
    (cs <> [] -> coherent h3 r3 o3 /\ s_ll (obj h3 o3) <> r_ll r3) /\
    dq_max (r_states r3) = window rs /\
    (forall dm dv, with_deques r3 dm dv -> dq_max dm = window rm /\ dq_max dv = window rm).
Proof.
  intros HI L1 L2 L3 L4 L5 L6 Hs Hm Hc.
  destruct (fresh_state h time x w ll inds mean var) as [h1 o0] eqn:Ef.
  destruct (fresh_state_spec b _ _ _ _ _ _ _ _ _ _ L1 L2 L3 L4 L5 L6 Ef) as (G & Eo & Os & Ok1 & B & Ab & N & V).
  destruct (init_spec b h1 o0 rs rm ltac:(lia) B N Hs Hm) as (h2 & r2 & dm & ds & Ei & I & Rl & Em & Es & S2 & O2 & T2 & U2 & W & St).
  destruct (steps_spec b cs h2 r2 o0 I Hc) as (h3 & r3 & o3 & E3 & I3 & Rl3 & S3 & O3 & G3 & U3 & K3 & Z3 & V3 & W3 & T3).
  exists h1, o0, h2, r2, h3, r3, o3. split; [reflexivity|]. split; [exact Ei|]. split; [exact E3|]. split; [exact I3|].
  assert (HR2 : reachable b h2 r2 o0) by (eapply reach_init; [exact L1|exact L2|exact L3|exact L4|exact L5|exact L6|exact Ef|exact Ei]).
  split; [eapply reachable_steps; [exact HR2|exact Hc|exact E3]|].
  pose proof (grows_size _ _ G) as Gs.
  assert (Os2 : osize h2 = osize h1) by (unfold osize; now rewrite O2).
  assert (Ob2 : forall k, obj h2 k = obj h1 k) by (intros k; unfold obj; now rewrite O2).
  assert (HA2 : above (size h) (osize h) h2 r2 o0).
  { pose proof (make_dequeue_items _ _ Em) as Im. pose proof (make_dequeue_items _ _ Es) as Is. split.
    - intros a Ha. apply in_footprint in Ha. destruct Ha as [Ha|(k & Hk & Ha)].
      + rewrite (with_recorded _ _ _ W) in Ha. cbn [In] in Ha. rewrite in_app_iff in Ha.
        destruct Ha as [<-|[Ha|Ha]]; [rewrite Rl; apply Ab; cbn; tauto| |];
          apply in_dq_append in Ha; rewrite Im in Ha; destruct Ha as [[]| ->]; apply Ab; cbn; tauto.
      + assert (k = o0).
        { destruct Hk as [<-|Hk]; [reflexivity|]. rewrite St in Hk. apply in_dq_append in Hk. rewrite Is in Hk. now destruct Hk as [[]| ->]. }
        subst k. rewrite Ob2 in Ha. now apply Ab.
    - intros k [<-|Hk]; [lia|]. rewrite St in Hk. apply in_dq_append in Hk. rewrite Is in Hk. destruct Hk as [[]| ->]; lia. }
  destruct (steps_above b (size h) (osize h) cs h2 r2 o0 h3 r3 o3 I Hc ltac:(lia) ltac:(lia) HA2 E3) as [HA3 HL].
  assert (Hrl : size h <= r_ll r2) by (rewrite Rl; apply Ab; cbn; tauto).
  assert (UT : untouched h h3 r o).
  { destruct (inv_below _ _ _ _ HI) as [B1 B2]. constructor.
    - unfold size in *. lia.
    - unfold osize in *. lia.
    - intros a Ha. apply B1 in Ha. rewrite U3 by lia. rewrite U2 by lia. now apply grows_get.
    - intros k Hk. apply B2 in Hk. rewrite K3 by lia. rewrite Ob2. now apply Ok1. }
  split; [exact UT|]. split; [|split; [exact HL|]].
  - apply (above_below_separate (size h) (osize h)); [|exact HA3]. destruct (inv_below _ _ _ _ HI) as [B1 B2]. split; [|exact B2].
    intros a Ha. apply B1. apply in_footprint. apply in_footprint in Ha. destruct Ha as [Ha|(k & Hk & Ha)]; [now left|].
    right. exists k. split; [exact Hk|]. now rewrite (ut_objs _ _ _ _ UT k Hk) in Ha.
  - assert (Hw : forall A (m0 : maxlen_arg) (d : dq A), make_dequeue m0 = Ok d -> dq_max d = window m0).
    { intros A m0 d. destruct m0 as [|[]|z]; cbn; intros H; try (injection H as <-; reflexivity).
      destruct (z <? 0)%Z; [discriminate|]. now injection H as <-. }
    split; [rewrite T3, St, dq_append_max; now apply Hw|].
    intros dm3 dv3 W33. destruct (W3 _ _ W) as (dm' & dv' & W' & M1 & M2 & _).
    unfold with_deques in W', W33. rewrite W' in W33. injection W33 as <- <-.
    rewrite M1, M2, !dq_append_max. split; now apply Hw.
Qed.
