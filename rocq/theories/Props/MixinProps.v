(** Properties C114 (pyfilter/inference/prior.py:161-192, [to] and [cuda]) and C115 (prior.py:195-225, [patch]). *)
From Coq Require Import Reals Lra String List Bool Arith Lia.
From Verif.Model Require Import Base Xf Mixin.
From Verif.Spec Require Import MixinSpec.
From Verif.Proofs Require Import MixinProofs.
Import ListNotations.
Local Open Scope string_scope.
Local Open Scope list_scope.
Local Open Scope nat_scope.

(** * C114 *)
Lemma get_plain c o bs k : o_class o = c -> o_dict o = map (fun k => (k, od_get k bs)) (k_required c ++ k_optional c) ->
  In k (k_required c ++ k_optional c) -> get_arg o k = Ok (od_get k bs).
Proof. intros E D I. unfold get_arg. rewrite D, get_table, (proj2 (mem_iff k _) I). reflexivity. Qed.

(** What [to] computes for an object of a plain class. *)
Lemma to_plain c d1 d2 v args o dev : plain c -> construct c d1 v args = Ok o ->
  exists ps, moved_args o dev (k_keys c) = Ok ps /\
    let d := map (fun k => (k, od_get k ps)) (k_required c ++ k_optional c) in
    to_device d2 o dev = if d2 && negb (checks c d) then Raise ValueError else Ok (DObj c d d2).
Proof.
  intros (C & ND & NR & K) B. destruct (built_plain _ _ _ _ _ C B) as (bs & n & EC & D & RQ & L & _).
  assert (G : forall k, In k (k_keys c) -> get_arg o k = Ok (od_get k bs)) by (intros k I; apply (get_plain c); auto; now apply K).
  destruct (moved_ok o dev (k_keys c)) as [ps E]; [intros k I; rewrite (G k I); eauto|]. exists ps. split; [exact E|].
  unfold to_device. rewrite EC, E. cbn [bind]. rewrite construct_plain by exact C.
  assert (T1 : forallb (fun p => mem (fst p) (k_required c ++ k_optional c)) ps = true).
  { apply forallb_forall. intros [k t] I. apply mem_iff. apply K. apply (moved_keys _ _ _ _ E). apply in_map_iff. now exists (k, t). }
  assert (T2 : forallb (fun k => od_mem k ps) (k_required c) = true).
  { apply forallb_forall. intros k I. apply mem_keys. apply (moved_keys _ _ _ _ E). assert (I' : In k (k_keys c)) by (apply K; apply in_or_app; auto).
    split; [exact I'|]. destruct (RQ k I) as [t R]. exists t. now rewrite (G k I'), R. }
  rewrite T1, T2. cbn [negb]. rewrite (broadcast_same ps n); [reflexivity|]. intros [k t] I. destruct (moved_in _ _ _ _ _ E I) as (t' & A & S). cbn in *. subst t. cbn.
  assert (I' : In k (k_keys c)) by (apply (proj1 (moved_keys _ _ _ _ E k)); apply in_map_iff; now exists (k, DTensor (dt_data t') dev)).
  rewrite (G k I') in A. injection A as A. apply get_in in A. exact (L _ A).
Qed.
Lemma moved_same c d1 v args o dev ps d2 : plain c -> construct c d1 v args = Ok o -> moved_args o dev (k_keys c) = Ok ps ->
  same_on dev o (DObj c (map (fun k => (k, od_get k ps)) (k_required c ++ k_optional c)) d2).
Proof.
  intros (C & ND & NR & K) B E k I. destruct (built_plain _ _ _ _ _ C B) as (bs & n & EC & D & RQ & L & _). rewrite EC in I.
  assert (G : get_arg o k = Ok (od_get k bs)) by (apply (get_plain c); auto; now apply K).
  rewrite (get_plain c (DObj c _ d2) ps k eq_refl eq_refl) by now apply K.
  rewrite (moved_get _ _ _ _ E k I), G. destruct (od_get k bs) as [t|]; [left; eauto|right; auto].
Qed.
Lemma checks_iff c d1 v args o dev ps : plain c -> construct c d1 v args = Ok o -> moved_args o dev (k_keys c) = Ok ps ->
  (checks c (map (fun k => (k, od_get k ps)) (k_required c ++ k_optional c)) = true <-> admissible o).
Proof.
  intros (C & ND & NR & K) B E. destruct (built_plain _ _ _ _ _ C B) as (bs & n & EC & D & RQ & L & _).
  assert (G : forall k, In k (k_keys c) -> get_arg o k = Ok (od_get k bs)) by (intros k I; apply (get_plain c); auto; now apply K).
  unfold checks, admissible. rewrite forallb_forall, EC. split; intros H.
  - intros k t x I A X. specialize (H k I). rewrite get_table, (proj2 (mem_iff k _)), (moved_get _ _ _ _ E k I), A in H by now apply K. rewrite forallb_forall in H. now apply H.
  - intros k I. rewrite get_table, (proj2 (mem_iff k _)), (moved_get _ _ _ _ E k I) by now apply K. rewrite (G k I). destruct (od_get k bs) as [t|] eqn:T; [|reflexivity].
    apply forallb_forall. intros x X. apply (H k t x I); [now rewrite (G k I), T|exact X].
Qed.

(** A distribution of a plain class, built in whatever way, is moved as a distribution of the same class whose arguments are the
    same numbers, all on the device, if its arguments are admissible or validation is off by default. *)
Theorem C114_moved_partial : forall c d1 v args o dflt device, plain c -> construct c d1 v args = Ok o ->
  (dflt = false \/ admissible o) ->
  exists o', to_device dflt o device = Ok o' /\ o_class o' = o_class o /\ same_on device o o' /\ o_validate o' = dflt.
Proof.
  intros c d1 v args o dflt device P B H. destruct (to_plain c d1 dflt v args o device P B) as (ps & E & T). cbn in T.
  assert (EC : o_class o = c) by (destruct P as [C _]; destruct (built_plain _ _ _ _ _ C B) as (? & ? & X & _); exact X).
  assert (Q : dflt && negb (checks c (map (fun k => (k, od_get k ps)) (k_required c ++ k_optional c))) = false).
  { destruct H as [->|A]; [reflexivity|]. rewrite (proj2 (checks_iff c d1 v args o device ps P B E) A). apply andb_false_r. }
  rewrite Q in T. eexists. split; [exact T|]. split; [now rewrite EC|]. split; [|reflexivity]. eapply moved_same; eauto.
Qed.
Print Assumptions C114_moved_partial.

(** [cuda] moves them to the first cuda device. *)
Theorem C114_cuda_partial : forall c d1 v args o dflt, plain c -> construct c d1 v args = Ok o -> (dflt = false \/ admissible o) ->
  exists o', cuda dflt o = Ok o' /\ o_class o' = o_class o /\ same_on "cuda:0" o o'.
Proof.
  intros c d1 v args o dflt P B H. destruct (C114_moved_partial c d1 v args o dflt "cuda:0" P B H) as (o' & T & C & S & _). exists o'. auto.
Qed.
Print Assumptions C114_cuda_partial.

Lemma own_admissible c d v args o : plain c -> construct c d v args = Ok o -> o_validate o = true -> admissible o.
Proof.
  intros P B V k t x I A X. destruct P as (C & ND & NR & K). destruct (built_plain _ _ _ _ _ C B) as (bs & n & EC & D & _ & _ & _). rewrite EC in I.
  assert (G : get_arg o k = Ok (od_get k bs)) by (apply (get_plain c); auto; now apply K).
  assert (Q : checks c (o_dict o) = true).
  { rewrite construct_plain in B by exact C. destruct forallb; [|discriminate]. destruct (forallb _ (k_required c)); [|discriminate]. cbn [negb] in B.
    destruct (broadcast_all args); [|discriminate]. cbn [bind] in B. destruct (_ && _) eqn:W; [discriminate|]. injection B as <-. cbn in V |- *. rewrite V in W.
    cbn in W. now apply negb_false_iff in W. }
  unfold checks in Q. rewrite forallb_forall in Q. specialize (Q k I). rewrite D, get_table, (proj2 (mem_iff k _)) in Q by now apply K.
  rewrite G in A. injection A as A. rewrite A in Q. rewrite forallb_forall in Q. rewrite EC. now apply Q.
Qed.

(** In particular a distribution of a plain class that was validated when it was built is always moved, and back again. *)
Theorem C114_round_trip_partial : forall c d1 v args o dflt device, plain c -> construct c d1 v args = Ok o -> o_validate o = true ->
  (forall k t, In k (k_keys c) -> get_arg o k = Ok (Some t) -> dt_dev t = "cpu"%string) ->
  exists o1 o2, to_device dflt o device = Ok o1 /\ to_device dflt o1 "cpu" = Ok o2 /\ o_class o2 = c /\
    forall k, In k (k_keys c) -> get_arg o2 k = get_arg o k.
Proof.
  intros c d1 v args o dflt device P B V H. pose proof (own_admissible _ _ _ _ _ P B V) as A.
  assert (EC : o_class o = c) by (destruct P as [C _]; destruct (built_plain _ _ _ _ _ C B) as (? & ? & X & _); exact X).
  destruct (C114_moved_partial c d1 v args o dflt device P B (or_intror A)) as (o1 & T1 & C1 & S1 & V1).
  assert (B1 : exists ps, construct c dflt None ps = Ok o1).
  { unfold to_device in T1. rewrite EC in T1. destruct (moved_args o device (k_keys c)) as [ps|]; [|discriminate]. now exists ps. }
  destruct B1 as [ps B1].
  assert (A1 : admissible o1).
  { intros k t x I G X. rewrite C1 in I |- *. destruct (S1 k I) as [(t' & G' & G1)|[_ G1]]; rewrite G in G1; [|discriminate]. injection G1 as ->. cbn in X. now apply (A k t' x). }
  destruct (C114_moved_partial c dflt None ps o1 dflt "cpu" P B1 (or_intror A1)) as (o2 & T2 & C2 & S2 & V2).
  exists o1, o2. repeat split; auto; [congruence|]. intros k I.
  assert (I1 : In k (k_keys (o_class o))) by now rewrite EC. destruct (S1 k I1) as [(t & G & G1)|[G G1]].
  - rewrite <- C1 in I1. destruct (S2 k I1) as [(t' & G' & G2)|[G' _]]; rewrite G1 in G'; [|discriminate]. injection G' as <-. rewrite G2, G. cbn.
    rewrite <- (H k t I G). now destruct t.
  - rewrite <- C1 in I1. destruct (S2 k I1) as [(t' & G' & G2)|[G' G2]]; rewrite G1 in G'; [discriminate|]. now rewrite G2, G.
Qed.
Print Assumptions C114_round_trip_partial.

(** FINDING: [validate_args=False] is not carried over, so that a distribution whose arguments are outside their constraints is
    refused, for every plain class. *)
Theorem C114_validation_refuted : forall c d1 v args o device, plain c -> construct c d1 v args = Ok o -> ~ admissible o ->
  o_validate o = false /\ to_device true o device = Raise ValueError.
Proof.
  intros c d1 v args o device P B A. split.
  - destruct (o_validate o) eqn:V; [|reflexivity]. destruct A. eapply own_admissible; eauto.
  - destruct (to_plain c d1 true v args o device P B) as (ps & E & ->). destruct (checks c _) eqn:Q; [|reflexivity].
    destruct A. now apply (checks_iff c d1 v args o device ps P B E).
Qed.
Print Assumptions C114_validation_refuted.

(** FINDING: objects of a class with alternatives (MultivariateNormal, Bernoulli, Categorical...) are never moved: every
    alternative can be read, and all of them are given to the constructor. *)
Theorem C114_alternatives_refuted : forall c d1 v args o dflt device, with_alternatives c -> construct c d1 v args = Ok o ->
  to_device dflt o device = Raise ValueError.
Proof.
  intros c d1 v args o dflt device ((a & b & r & C) & ND & K & OP) B.
  unfold construct in B. rewrite OP in B. cbn [app] in B.
  destruct (forallb _ args) eqn:E1 in B; [|discriminate]. destruct (forallb _ (k_required c)) eqn:E2 in B; [|discriminate]. cbn [negb] in B.
  set (given := filter (fun k => od_mem k args) (k_choice c)) in *.
  replace (match k_choice c with [] => true | _ :: _ => List.length given =? 1 end) with (List.length given =? 1) in B by (now rewrite C).
  destruct (Nat.eqb_spec (List.length given) 1) as [L|]; [|discriminate]. cbn [negb] in B.
  replace (match k_choice c with [] => broadcast_all args | _ :: _ => Ok args end) with (Ok args) in B by (now rewrite C). cbn [bind] in B.
  destruct given as [|g [|]] eqn:EG; try discriminate. clear L. destruct (_ && _) in B; [discriminate|]. injection B as <-.
  set (o := DObj _ _ _). rewrite forallb_forall in E2.
  assert (IG : In g (k_choice c) /\ od_mem g args = true) by (apply (filter_In (fun k => od_mem k args)); fold given; rewrite EG; now left).
  destruct IG as [IG MG].
  assert (R : forall k, In k (k_required c ++ [g]) -> exists t, get_arg o k = Ok (Some t)).
  { intros k I. unfold get_arg. cbn [o o_dict]. rewrite get_table, (proj2 (mem_iff k _) I).
    assert (M : od_mem k args = true) by (apply in_app_or in I; destruct I as [I|[<-|[]]]; auto). unfold od_mem in M. destruct (od_get k args); [eauto|discriminate]. }
  assert (R2 : forall k, In k (k_choice c) -> exists t, get_arg o k = Ok (Some t)).
  { intros k I. destruct (in_dec String.string_dec k (k_required c ++ [g])) as [J|J]; [now apply R|]. unfold get_arg at 1. change (o_dict o) with (map (fun k0 => (k0, od_get k0 args)) (k_required c ++ [g])). change (o_class o) with c.
    rewrite get_table. destruct (mem k _) eqn:M; [apply mem_iff in M; tauto|]. rewrite (proj2 (mem_iff k _) I).
    assert (X : In g (filter (fun k' => od_mem k' (map (fun k0 => (k0, od_get k0 args)) (k_required c ++ [g]))) (k_choice c))).
    { apply filter_In. split; [exact IG|]. apply mem_keys. rewrite map_map. cbn. rewrite map_id. apply in_or_app. right. now left. }
    match type of X with In _ ?l => destruct l as [|k' l'] eqn:F end; [destruct X|].
    assert (Y : In k' (k_required c ++ [g])). { assert (Z : In k' (k' :: l')) by now left. rewrite <- F in Z. apply filter_In in Z. destruct Z as [_ Z]. apply mem_keys in Z. rewrite map_map in Z. cbn in Z. now rewrite map_id in Z. }
    rewrite get_table, (proj2 (mem_iff k' _) Y).
    assert (M' : od_mem k' args = true) by (apply in_app_or in Y; destruct Y as [Y|[<-|[]]]; auto). unfold od_mem in M'. destruct (od_get k' args); [eauto|discriminate]. }
  assert (RK : forall k, In k (k_keys c) -> exists t, get_arg o k = Ok (Some t)).
  { intros k I. apply K in I. apply in_app_or in I. destruct I as [I|I]; [apply R; apply in_or_app; auto|now apply R2]. }
  unfold to_device. cbn [o o_class]. destruct (moved_ok o device (k_keys c)) as [ps E]; [intros k I; destruct (RK k I) as [t ->]; eauto|]. rewrite E. cbn [bind].
  assert (M : forall k, In k (k_keys c) -> od_mem k ps = true) by (intros k I; apply mem_keys; apply (moved_keys _ _ _ _ E); auto).
  unfold construct. rewrite OP. cbn [app].
  assert (T1 : forallb (fun p => mem (fst p) (k_required c ++ k_choice c)) ps = true).
  { apply forallb_forall. intros [k t] I. apply mem_iff. apply K. apply (moved_keys _ _ _ _ E). apply in_map_iff. now exists (k, t). }
  assert (T2 : forallb (fun k => od_mem k ps) (k_required c) = true) by (apply forallb_forall; intros k I; apply M; apply K; apply in_or_app; auto).
  rewrite T1, T2. cbn [negb].
  assert (F : filter (fun k => od_mem k ps) (k_choice c) = k_choice c).
  { assert (Q : forall k, In k (k_choice c) -> od_mem k ps = true) by (intros k I; apply M; apply K; apply in_or_app; auto). clear - Q. revert Q. generalize (k_choice c). intros l Q.
    induction l as [|x l IH]; cbn; [reflexivity|]. rewrite Q by now left. f_equal. apply IH. intros; apply Q; now right. }
  rewrite F, C. reflexivity.
Qed.
Print Assumptions C114_alternatives_refuted.

(** FINDING: objects of a class that has to be given something which is not a constrained argument (the base distribution of
    Independent and of TransformedDistribution) are never moved. *)
Theorem C114_wrappers_refuted : forall o dflt device, (exists k, In k (k_required (o_class o)) /\ ~ In k (k_keys (o_class o))) ->
  (forall k, In k (k_keys (o_class o)) -> exists v, get_arg o k = Ok v) ->
  to_device dflt o device = Raise TypeError.
Proof.
  intros o dflt device (k & I & N) H. unfold to_device. destruct (moved_ok o device _ H) as [ps E]. rewrite E. cbn [bind]. unfold construct.
  destruct (forallb (fun p => _) ps); [cbn [negb]|reflexivity].
  destruct (forallb _ (k_required (o_class o))) eqn:F; [|reflexivity]. rewrite forallb_forall in F. specialize (F k I). apply mem_keys in F.
  apply (moved_keys _ _ _ _ E) in F. tauto.
Qed.
Print Assumptions C114_wrappers_refuted.

(** torch's Normal, MultivariateNormal (the matrices flattened) and Independent. *)
Definition real_arg (x : xf) : bool := match x with NaN => false | _ => true end.
Definition positive_arg (x : xf) : bool := match x with Fin r => if Rlt_dec 0 r then true else false | PInf => true | _ => false end.
Definition normal_class : dclass :=
  DClass "Normal" ["loc"; "scale"] ["loc"; "scale"] [] [] (fun k => if String.eqb k "scale" then positive_arg else real_arg) (fun _ _ l => l).
Definition mvn_class : dclass :=
  DClass "MultivariateNormal" ["loc"; "covariance_matrix"; "precision_matrix"; "scale_tril"] ["loc"] [] ["covariance_matrix"; "precision_matrix"; "scale_tril"]
    (fun _ => real_arg) (fun _ _ l => l).
Definition independent_class : dclass := DClass "Independent" [] ["base_distribution"; "reinterpreted_batch_ndims"] [] [] (fun _ _ => true) (fun _ _ l => l).
Lemma normal_plain : plain normal_class.
Proof.
  split; [reflexivity|]. split; [repeat constructor; cbn; intuition discriminate|]. split; [repeat constructor; cbn; intuition discriminate|].
  intros k. cbn. tauto.
Qed.
Lemma mvn_alternatives : with_alternatives mvn_class.
Proof. split; [now exists "covariance_matrix", "precision_matrix", ["scale_tril"]|]. split; [repeat constructor; cbn; intuition discriminate|]. split; [|reflexivity]. intros k. cbn. tauto. Qed.

(** Normal(tensor([0., 1.]), 2.) can be moved; Normal(0., -1., validate_args=False) cannot; neither can a MultivariateNormal. *)
Example C114_nonvacuous :
  (exists o o', construct normal_class true None [("loc", DTensor [Fin 0; Fin 1] "cpu"); ("scale", DTensor [Fin 2] "cpu")] = Ok o /\
     to_device true o "cuda:0" = Ok o' /\
     get_arg o' "scale" = Ok (Some (DTensor [Fin 2; Fin 2] "cuda:0"))) /\
  (exists o, construct normal_class true (Some false) [("loc", DTensor [Fin 0] "cpu"); ("scale", DTensor [Fin (-1)] "cpu")] = Ok o /\
     to_device true o "cuda:0" = Raise ValueError) /\
  (exists o, construct mvn_class true None [("loc", DTensor [Fin 0] "cpu"); ("scale_tril", DTensor [Fin 1] "cpu")] = Ok o /\
     to_device true o "cuda:0" = Raise ValueError) /\
  to_device true (DObj independent_class [] true) "cuda:0" = Raise TypeError.
Proof.
  split; [|split; [|split]].
  - assert (E : exists o, construct normal_class true None [("loc", DTensor [Fin 0; Fin 1] "cpu"); ("scale", DTensor [Fin 2] "cpu")] = Ok o /\ o_validate o = true /\ get_arg o "scale" = Ok (Some (DTensor [Fin 2; Fin 2] "cpu"))).
    { unfold construct, checks. cbn. destruct (Rlt_dec 0 2); [|lra]. cbn. eexists. repeat split; reflexivity. }
    destruct E as (o & B & V & G). destruct (C114_moved_partial normal_class true None _ o true "cuda:0" normal_plain B) as (o' & T & _ & S & _).
    { right. eapply own_admissible; eauto using normal_plain. }
    exists o, o'. split; [exact B|]. split; [exact T|]. assert (EC : o_class o = normal_class) by (destruct (built_plain normal_class _ _ _ _ eq_refl B) as (? & ? & X & _); exact X).
    destruct (S "scale"%string) as [(t & A & A')|[A _]]; [rewrite EC; cbn; auto| |congruence]. rewrite G in A. injection A as <-. exact A'.
  - eexists. split; [reflexivity|]. eapply (C114_validation_refuted normal_class true (Some false) [("loc", DTensor [Fin 0] "cpu"); ("scale", DTensor [Fin (-1)] "cpu")]); [apply normal_plain|reflexivity|].
    intros A. specialize (A "scale"%string (DTensor [Fin (-1)] "cpu") (Fin (-1))). cbn in A. destruct (Rlt_dec 0 (-1)); [lra|]. discriminate A; auto.
  - eexists. split; [reflexivity|]. eapply (C114_alternatives_refuted mvn_class true None [("loc", DTensor [Fin 0] "cpu"); ("scale_tril", DTensor [Fin 1] "cpu")]); [apply mvn_alternatives|reflexivity].
  - apply C114_wrappers_refuted; [exists "base_distribution"%string; cbn; tauto|intros k []].
Qed.

(** * C115 *)
Lemma patch_inherited sub names c : y_inherited (patch_names sub names c) = y_inherited c.
Proof. revert c. induction names as [|k r IH]; intros c; cbn; [reflexivity|]. destruct (_ || _); rewrite IH; [reflexivity|]. now destruct (lookup sub k). Qed.
Lemma has_lookup c k : has_attr c k = match lookup c k with Some _ => true | None => false end.
Proof. unfold has_attr, lookup, od_mem. destruct (od_get k (y_dict c)); [reflexivity|]. reflexivity. Qed.
Lemma get_set {V} k k' (v : V) d : od_get k (od_set k' v d) = if String.eqb k k' then Some v else od_get k d.
Proof.
  induction d as [|[a b] d IH]; cbn; [destruct (String.eqb k k'); reflexivity|]. destruct (String.eqb_spec k' a) as [<-|N]; cbn.
  - destruct (String.eqb k k'); reflexivity.
  - destruct (String.eqb_spec k a) as [->|M]; [destruct (String.eqb_spec a k'); [congruence|reflexivity]|exact IH].
Qed.
Lemma patch_lookup sub names c k :
  lookup (patch_names sub names c) k =
    match lookup c k with Some m => Some m | None => if private k then None else if mem k names then lookup sub k else None end.
Proof.
  revert c. induction names as [|a r IH]; intros c; cbn [patch_names].
  - cbn. destruct (lookup c k); [reflexivity|]. now destruct (private k).
  - cbn [mem existsb]. fold (mem k r). destruct (private a || has_attr c a) eqn:E.
    + rewrite IH. destruct (lookup c k) eqn:L; [reflexivity|]. destruct (private k) eqn:P; [reflexivity|]. destruct (String.eqb_spec k a) as [<-|]; [|reflexivity].
      rewrite has_lookup, L, P in E. discriminate.
    + apply orb_false_iff in E. destruct E as [PA HA]. rewrite has_lookup in HA. destruct (lookup c a) eqn:LA; [discriminate|]. rewrite IH. destruct (lookup sub a) as [m|] eqn:SA.
      * unfold lookup at 1. cbn [y_dict y_inherited]. rewrite get_set. destruct (String.eqb_spec k a) as [->|N]; cbn [orb]; [rewrite LA, PA, SA; reflexivity|].
        fold (lookup c k). reflexivity.
      * destruct (lookup c k); [reflexivity|]. destruct (private k); [reflexivity|]. destruct (String.eqb_spec k a) as [->|N]; cbn [orb]; [|reflexivity]. rewrite SA. now destruct (mem a r).
Qed.

(** After a mixin has been patched into a class for the first time, every attribute the class had, its own or inherited, is as
    before; every public method defined in the mixin itself that the class did not have is the one of the mixin; nothing else is
    added. *)
Theorem C115_patched : forall applied sub c, ~ In (y_id sub) applied ->
  let c' := snd (patch applied sub c) in
  (forall k m, lookup c k = Some m -> lookup c' k = Some m) /\
  (forall k m, lookup c k = None -> private k = false -> od_get k (y_dict sub) = Some m -> lookup c' k = Some m) /\
  (forall k, private k = true \/ od_get k (y_dict sub) = None -> lookup c' k = lookup c k) /\
  y_inherited c' = y_inherited c.
Proof.
  intros applied sub c N c'. subst c'. unfold patch. destruct (existsb _ applied) eqn:E; [apply existsb_exists in E; destruct E as (x & I & E); apply Nat.eqb_eq in E; subst; tauto|].
  cbn [snd]. split; [|split; [|split]].
  - intros k m L. now rewrite patch_lookup, L.
  - intros k m L P G. rewrite patch_lookup, L, P. assert (I : In k (od_keys (y_dict sub))) by (apply get_in in G; apply in_map_iff; now exists (k, m)).
    rewrite (proj2 (mem_iff k _) I). unfold lookup. now rewrite G.
  - intros k H. rewrite patch_lookup. destruct (lookup c k); [reflexivity|]. destruct (private k) eqn:P; [reflexivity|]. destruct H as [H|H]; [discriminate|].
    destruct (mem k (od_keys (y_dict sub))) eqn:M; [|reflexivity]. apply mem_iff in M. apply get_none in H. tauto.
  - apply patch_inherited.
Qed.
Print Assumptions C115_patched.

(** Importing the module again, or patching again, changes nothing. *)
Theorem C115_once : forall applied sub c c2, let (applied', c') := patch applied sub c in
  In (y_id sub) applied' /\ patch applied' sub c' = (applied', c') /\ patch applied' sub c2 = (applied', c2).
Proof.
  intros applied sub c c2. unfold patch. destruct (existsb _ applied) eqn:E.
  - rewrite E. repeat split; auto. apply existsb_exists in E. destruct E as (x & I & E). apply Nat.eqb_eq in E. now subst.
  - assert (I : In (y_id sub) (applied ++ [y_id sub])) by (apply in_or_app; right; now left). split; [exact I|].
    destruct (existsb _ (applied ++ _)) eqn:F; [auto|]. exfalso. assert (existsb (Nat.eqb (y_id sub)) (applied ++ [y_id sub]) = true) by (apply existsb_exists; eexists; split; [exact I|apply Nat.eqb_refl]). congruence.
Qed.
Print Assumptions C115_once.

(** Of two mixins with a method of the same name the one patched first provides it. *)
Theorem C115_first_wins : forall applied a b c k m, ~ In (y_id a) applied -> lookup c k = None -> private k = false ->
  od_get k (y_dict a) = Some m ->
  let (applied', c') := patch applied a c in lookup (snd (patch applied' b c')) k = Some m.
Proof.
  intros applied a b c k m N L P G. destruct (patch applied a c) as [applied' c'] eqn:E. pose proof (C115_patched applied a c N) as H. rewrite E in H. cbn in H. destruct H as (_ & H & _).
  specialize (H k m L P G). unfold patch. destruct (existsb _ applied'); cbn [snd]; [exact H|]. now rewrite patch_lookup, H.
Qed.
Print Assumptions C115_first_wins.

(** FINDING: a mixin that has been patched into one class is silently not patched into any other. *)
Theorem C115_second_class_refuted : forall applied sub c1 c2,
  snd (patch (fst (patch applied sub c1)) sub c2) = c2.
Proof. intros applied sub c1 c2. pose proof (C115_once applied sub c1 c2) as H. destruct (patch applied sub c1) as [a c]. cbn [fst]. destruct H as (_ & _ & ->). reflexivity. Qed.
Print Assumptions C115_second_class_refuted.

(** A class that has [copy] of its own and inherits [to]: [cuda] is added, the other two are kept, [_helper] is not added. *)
Example C115_nonvacuous :
  let mixin := PyClass 7 [("__module__", 1); ("_helper", 2); ("copy", 3); ("to", 4); ("cuda", 5)] [("base", 6)] in
  let c := PyClass 8 [("copy", 10)] [("to", 11)] in
  let c' := snd (patch [] mixin c) in
  lookup c' "copy" = Some 10 /\ lookup c' "to" = Some 11 /\ lookup c' "cuda" = Some 5 /\ lookup c' "_helper" = None /\ lookup c' "base" = None /\ ~ In 7 (@nil nat).
Proof. cbn. repeat split; auto. Qed.
