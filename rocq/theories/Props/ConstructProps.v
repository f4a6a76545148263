(** C92: which arguments the combined algorithms accept, and what they build from them. *)
From Coq Require Import String List Arith Bool Reals Lia.
From Verif.Model Require Import Base Construct.
Import ListNotations.
Local Open Scope nat_scope.
Local Open Scope string_scope.

(** The value of a keyword in a dictionary that may leave it out. *)
Definition given (kw : kwargs) (k : string) (default : pyval) : pyval := match od_get k kw with Some v => v | None => default end.
Definition names_of (kw : kwargs) : list string := map fst kw.
(** What can be set of an SMC2 and of a NESS that is part of a combined algorithm. *)
Definition smc2_names : list string :=
  ["threshold"; "kernel"; "max_increases"; "num_steps"; "distance_threshold"; "acceptance_threshold"; "resampling"].
Definition ness_names : list string := ["threshold"; "kernel"; "discrete"].

Lemma is_name_In : forall l k, is_name l k = true <-> In k l.
Proof.
  intros l k. unfold is_name. rewrite existsb_exists. split.
  - intros (x & I & E). apply String.eqb_eq in E. subst. exact I.
  - intros I. exists k. split; auto. apply String.eqb_refl.
Qed.
Lemma is_name_false : forall l k, is_name l k = false <-> ~ In k l.
Proof. intros l k. rewrite <- is_name_In. destruct (is_name l k); split; intros; try congruence; try (exfalso; auto). Qed.

Lemma od_get_app : forall (a b : kwargs) k, od_get k (app a b) = match od_get k a with Some v => Some v | None => od_get k b end.
Proof. induction a as [|[k' v] a IH]; intros b k; cbn; auto. destruct (String.eqb k k'); auto. Qed.
Lemma od_get_none : forall (a : kwargs) k, ~ In k (names_of a) -> od_get k a = None.
Proof.
  induction a as [|[k' v] a IH]; intros k N; cbn in *; auto. destruct (String.eqb_spec k k'); subst; [exfalso; auto|]. apply IH. auto.
Qed.
Lemma od_get_filter : forall (a : kwargs) ps k,
  od_get k (filter (fun kv => negb (is_name ps (fst kv))) a) = if is_name ps k then None else od_get k a.
Proof.
  induction a as [|[k' v] a IH]; intros ps k; cbn. destruct (is_name ps k); auto.
  destruct (is_name ps k') eqn:E; cbn; rewrite ?IH.
  - destruct (String.eqb_spec k k'); subst. rewrite E. reflexivity. reflexivity.
  - destruct (String.eqb_spec k k'); subst. rewrite E. reflexivity. reflexivity.
Qed.
Lemma od_get_del : forall (a : kwargs) k k', NoDup (names_of a) -> od_get k (od_del k' a) = if String.eqb k k' then None else od_get k a.
Proof.
  induction a as [|[q v] a IH]; intros k k' N; cbn. destruct (String.eqb k k'); auto.
  inversion N; subst. destruct (String.eqb_spec k' q); subst.
  - destruct (String.eqb_spec k q); subst; auto. apply od_get_none. exact H1.
  - cbn. rewrite IH by auto. destruct (String.eqb_spec k q); subst; auto. destruct (String.eqb_spec q k'); subst; congruence.
Qed.
Lemma names_del : forall (a : kwargs) k x, NoDup (names_of a) -> (In x (names_of (od_del k a)) <-> In x (names_of a) /\ x <> k).
Proof.
  induction a as [|[q v] a IH]; intros k x N; cbn. tauto.
  inversion N; subst. destruct (String.eqb_spec k q); subst.
  - split. intros I. split; auto. intros ->. auto. intros [[->|I] D]; auto. congruence.
  - cbn. rewrite IH by auto. split. intros [->|[I D]]; auto. intros [[->|I] D]; auto.
Qed.
Lemma nodup_del : forall (a : kwargs) k, NoDup (names_of a) -> NoDup (names_of (od_del k a)).
Proof.
  induction a as [|[q v] a IH]; intros k N; cbn; auto. inversion N; subst. destruct (String.eqb_spec k q); auto.
  cbn. constructor; auto. intros I. apply names_del in I; auto. tauto.
Qed.
Lemma names_filter : forall (a : kwargs) ps x,
  In x (names_of (filter (fun kv => negb (is_name ps (fst kv))) a)) <-> In x (names_of a) /\ ~ In x ps.
Proof.
  intros a ps x. unfold names_of. rewrite !in_map_iff. split.
  - intros ((k & v) & <- & I). apply filter_In in I. destruct I as [I E]. cbn in *. split. exists (k, v). auto.
    apply is_name_false. destruct (is_name ps k); auto.
  - intros [((k & v) & <- & I) D]. exists (k, v). split; auto. apply filter_In. split; auto. cbn in *.
    apply is_name_false in D. rewrite D. reflexivity.
Qed.
Lemma nodup_filter : forall (a : kwargs) f, NoDup (names_of a) -> NoDup (names_of (filter f a)).
Proof.
  induction a as [|[q v] a IH]; intros f N; cbn; auto. inversion N; subst. destruct (f (q, v)); cbn; auto. constructor; auto.
  intros I. apply H1. unfold names_of in *. apply in_map_iff in I. destruct I as ((k & u) & E & I). apply filter_In in I.
  apply in_map_iff. exists (k, u). tauto.
Qed.

Lemma fill_ok : forall params gv, (forall k, In (k, None) params -> od_get k gv <> None) ->
  exists env, fill params gv = Ok env
    /\ forall k, od_get k env = match od_get k params with
         | None => None | Some d => match od_get k gv with Some v => Some v | None => d end end.
Proof.
  induction params as [|[k d] r IH]; intros gv H. exists []. split; reflexivity.
  destruct (IH gv) as (env & E & G). { intros q I. apply H. right. exact I. }
  cbn [fill]. destruct (od_get k gv) as [v|] eqn:V.
  - cbn [bind]. rewrite E. cbn [bind]. eexists. split. reflexivity. intros q. cbn. rewrite G.
    destruct (String.eqb_spec q k); subst; auto. rewrite V. reflexivity.
  - destruct d as [v|].
    + cbn [bind]. rewrite E. cbn [bind]. eexists. split. reflexivity. intros q. cbn. rewrite G.
      destruct (String.eqb_spec q k); subst; auto. rewrite V. reflexivity.
    + exfalso. apply (H k). left. reflexivity. exact V.
Qed.

Lemma existsb_false : forall {A} (f : A -> bool) l, (forall x, In x l -> f x = false) -> existsb f l = false.
Proof. induction l; intros H; cbn; auto. rewrite (H a) by (left; auto). apply IHl. intros x I; apply H; right; auto. Qed.

Lemma bind_ok : forall params varkw pos kws, List.length pos <= List.length params ->
  (forall k, In k (names_of kws) -> ~ In k (names_of (combine (map fst params) pos))) ->
  (varkw = true \/ forall k, In k (names_of kws) -> In k (map fst params)) ->
  (forall k, In (k, None) params -> od_get k (combine (map fst params) pos) <> None) ->
  exists env, bind_call params varkw pos kws = Ok (env, filter (fun kv => negb (is_name (map fst params) (fst kv))) kws)
    /\ forall k, od_get k env = match od_get k params with
         | None => None
         | Some d => match od_get k (combine (map fst params) pos) with
                     | Some v => Some v
                     | None => match od_get k kws with Some v => Some v | None => d end end end.
Proof.
  intros params varkw pos kws L D K R. unfold bind_call.
  destruct (Nat.ltb_spec (List.length params) (List.length pos)); [lia|].
  rewrite existsb_false. 2:{ intros k I. apply is_name_false. apply D. exact I. }
  assert (X : negb varkw && (0 <? List.length (filter (fun kv => negb (is_name (map fst params) (fst kv))) kws))%nat = false).
  { destruct K as [->|K]. reflexivity. replace (filter _ kws) with (@nil (string * pyval)). apply andb_false_r.
    symmetry. clear - K. induction kws as [|[k v] kws IH]; cbn; auto.
    assert (is_name (map fst params) k = true) as ->. { apply is_name_In. apply K. left. reflexivity. }
    cbn. apply IH. intros q I. apply K. right. exact I. }
  rewrite X.
  destruct (fill_ok params (app (combine (map fst params) pos) kws)) as (env & E & G).
  { intros k I. rewrite od_get_app. specialize (R k I). destruct (od_get k (combine _ pos)); congruence. }
  rewrite E. cbn [bind]. exists env. split. reflexivity. intros k. rewrite G. destruct (od_get k params); auto.
  rewrite od_get_app. destruct (od_get k (combine (map fst params) pos)); auto.
Qed.

Lemma bind_bad : forall params pos kws k, List.length pos <= List.length params -> In k (names_of kws) ->
  ~ In k (map fst params) -> bind_call params false pos kws = Raise TypeError.
Proof.
  intros params pos kws k L I D. unfold bind_call. destruct (Nat.ltb_spec (List.length params) (List.length pos)); [lia|].
  destruct (existsb _ _); auto. cbn [negb andb].
  destruct (filter (fun kv => negb (is_name (map fst params) (fst kv))) kws) as [|e r] eqn:F; [|reflexivity].
  exfalso. assert (In k (names_of (filter (fun kv => negb (is_name (map fst params) (fst kv))) kws))).
  { apply names_filter. auto. }
  rewrite F in H0. exact H0.
Qed.
Lemma bind_twice : forall params varkw pos kws k, List.length pos <= List.length params -> In k (names_of kws) ->
  In k (names_of (combine (map fst params) pos)) -> bind_call params varkw pos kws = Raise TypeError.
Proof.
  intros params varkw pos kws k L I D. unfold bind_call. destruct (Nat.ltb_spec (List.length params) (List.length pos)); [lia|].
  replace (existsb _ _) with true. reflexivity. symmetry. apply existsb_exists. exists k. split. exact I. apply is_name_In. exact D.
Qed.
Lemma star_ok : forall w s, (forall k, In k (names_of s) -> ~ In k (names_of w)) -> with_star w s = Ok (app w s).
Proof. intros w s H. unfold with_star. rewrite existsb_false. reflexivity. intros k I. apply is_name_false. auto. Qed.
Lemma star_bad : forall w s k, In k (names_of s) -> In k (names_of w) -> with_star w s = Raise TypeError.
Proof.
  intros w s k I J. unfold with_star. replace (existsb _ _) with true. reflexivity.
  symmetry. apply existsb_exists. exists k. split. exact I. apply is_name_In. exact J.
Qed.

Ltac cases_in I := cbn in I; repeat (destruct I as [I|I]; [subst; try discriminate I|]); try contradiction.
Ltac required J := cbn in J; repeat (destruct J as [J|J]; [first [discriminate J | (injection J as <-; cbn; discriminate)]|]); contradiction.
Ltac byc I := repeat (destruct I as [I|I]); subst; cbn in *; try contradiction; first [reflexivity | exfalso; auto 10; fail | auto 10].
Ltac look G := unfold get; rewrite G; cbn.

(** The first half, when every keyword is one that SMC2 or its kernel knows. *)
Lemma first_ok : forall c f n kw, NoDup (names_of kw) -> incl (names_of kw) smc2_names ->
  exists o, make_first (Some c) [f; PNone; n] kw = Ok o
    /\ o_class o = "SMC2" /\ o_context o = c
    /\ get (o_args o) "filter_" = f /\ get (o_args o) "particles" = n
    /\ get (o_args o) "threshold" = given kw "threshold" (PNum (5 / 10))
    /\ get (o_kernel o) "proposal" = given kw "kernel" PNone
    /\ get (o_kernel o) "max_increases" = given kw "max_increases" (PNum 5)
    /\ get (o_kernel o) "num_steps" = given kw "num_steps" (PNum 1)
    /\ get (o_kernel o) "distance_threshold" = given kw "distance_threshold" PNone
    /\ get (o_kernel o) "acceptance_threshold" = given kw "acceptance_threshold" (PNum (2 / 10))
    /\ get (o_kernel o) "resampling" = given kw "resampling" (PObj "systematic").
Proof.
  intros c f n kw N S. unfold make_first.
  destruct (bind_ok make_params true [f; PNone; n] kw) as (e1 & E1 & G1).
  { cbn. lia. }
  { intros k I. apply S in I. intros J. cbn in I, J. intuition (subst; congruence). }
  { left. reflexivity. }
  { intros k I. required I. }
  rewrite E1. cbn [bind]. set (x1 := filter _ kw).
  assert (V1 : forall k, ~ In k (map fst make_params) -> od_get k x1 = od_get k kw).
  { intros k D. unfold x1. rewrite od_get_filter. apply is_name_false in D. rewrite D. reflexivity. }
  assert (S1 : incl (names_of x1) smc2_names).
  { intros k I. apply names_filter in I. apply S. tauto. }
  assert (N1 : NoDup (names_of x1)) by (apply nodup_filter; auto).
  clearbody x1. unfold pop. set (thr := match od_get "threshold" x1 with Some v => v | None => PNum (5 / 10) end).
  set (x2 := od_del "threshold" x1).
  assert (S2 : forall k, In k (names_of x2) -> In k smc2_names /\ k <> "threshold").
  { intros k I. apply names_del in I; auto. destruct I. auto. }
  assert (V2 : forall k, k <> "threshold" -> od_get k x2 = od_get k x1).
  { intros k D. unfold x2. rewrite od_get_del by auto. destruct (String.eqb_spec k "threshold"); congruence. }
  assert (N2 : NoDup (names_of x2)) by (apply nodup_del; auto).
  clearbody x2.
  replace (get e1 "context") with PNone by (look G1; reflexivity).
  replace (get e1 "filter_") with f by (look G1; reflexivity).
  replace (get e1 "particles") with n by (look G1; reflexivity).
  rewrite star_ok. 2:{ intros k I. apply S2 in I. destruct I as [I D]. intros J. cbn in I, J. intuition (subst; congruence). }
  cbn [bind]. unfold smc2.
  set (x3 := app [("threshold", thr); ("context", PNone)] x2).
  assert (V3 : forall k, od_get k x3 = if String.eqb k "threshold" then Some thr else if String.eqb k "context" then Some PNone else od_get k x2) by reflexivity.
  assert (S3 : forall k, In k (names_of x3) -> k = "context" \/ In k smc2_names).
  { intros k I. cbn in I. destruct I as [<-|[<-|I]]; auto. right. cbn; auto. right. apply S2 in I. tauto. }
  clearbody x3.
  destruct (bind_ok smc2_params true [f; n] x3) as (e3 & E3 & G3).
  { cbn. lia. }
  { intros k I. apply S3 in I. intros J. cbn in I, J. intuition (subst; congruence). }
  { left. reflexivity. }
  { intros k I. required I. }
  rewrite E3. cbn [bind].
  set (x4 := filter _ x3).
  assert (V4 : forall k, ~ In k (map fst smc2_params) -> od_get k x4 = od_get k x3).
  { intros k D. unfold x4. rewrite od_get_filter. apply is_name_false in D. rewrite D. reflexivity. }
  assert (S4 : forall k, In k (names_of x4) -> In k ["num_steps"; "distance_threshold"; "acceptance_threshold"; "resampling"]).
  { intros k I. apply names_filter in I. destruct I as [I D]. apply S3 in I. cbn in I, D. cbn. byc I. }
  clearbody x4.
  replace (get e3 "context") with PNone by (look G3; rewrite V3; reflexivity).
  cbn [resolve bind].
  rewrite star_ok. 2:{ intros k I. apply S4 in I. intros J. cbn in I, J. intuition (subst; congruence). }
  cbn [bind]. unfold particle_mh.
  set (x5 := app [("proposal", get e3 "kernel"); ("max_increases", get e3 "max_increases")] x4).
  assert (V5 : forall k, od_get k x5 = if String.eqb k "proposal" then Some (get e3 "kernel") else if String.eqb k "max_increases" then Some (get e3 "max_increases") else od_get k x4) by reflexivity.
  assert (S5 : forall k, In k (names_of x5) -> k = "proposal" \/ k = "max_increases" \/ In k ["num_steps"; "distance_threshold"; "acceptance_threshold"; "resampling"]).
  { intros k I. cbn in I. destruct I as [<-|[<-|I]]; auto. }
  clearbody x5.
  destruct (bind_ok pmh_params true [] x5) as (e5 & E5 & G5).
  { cbn. lia. } { intros k I J. exact J. } { left. reflexivity. }
  { intros k I. required I. }
  rewrite E5. cbn [bind]. set (x6 := filter _ x5).
  assert (V6 : forall k, ~ In k (map fst pmh_params) -> od_get k x6 = od_get k x5).
  { intros k D. unfold x6. rewrite od_get_filter. apply is_name_false in D. rewrite D. reflexivity. }
  assert (S6 : forall k, In k (names_of x6) -> k = "resampling").
  { intros k I. apply names_filter in I. destruct I as [I D]. apply S5 in I. cbn in I, D. byc I. }
  clearbody x6.
  destruct (bind_ok base_kernel_params false [] x6) as (e6 & E6 & G6).
  { cbn. lia. } { intros k I J. exact J. } { right. intros k I. apply S6 in I. subst. left. reflexivity. }
  { intros k I. required I. }
  rewrite E6. cbn [bind]. eexists. split. reflexivity. cbn [o_class o_context o_args o_kernel].
  assert (A : forall k v, od_get k e5 = Some v -> get (app e5 e6) k = v).
  { intros k v H. unfold get. rewrite od_get_app, H. reflexivity. }
  assert (B : forall k, od_get k e5 = None -> get (app e5 e6) k = get e6 k).
  { intros k H. unfold get. rewrite od_get_app, H. reflexivity. }
  assert (W : forall k, In k ["kernel"; "max_increases"; "num_steps"; "distance_threshold"; "acceptance_threshold"; "resampling"] -> od_get k x3 = od_get k kw).
  { intros k I. assert (k <> "threshold" /\ k <> "context" /\ ~ In k (map fst make_params)).
    { cbn in I. intuition (subst; try discriminate); cbn in *; intuition discriminate. }
    destruct H as (D1 & D2 & D3). rewrite V3. destruct (String.eqb_spec k "threshold"); [congruence|].
    destruct (String.eqb_spec k "context"); [congruence|]. rewrite V2, V1; auto. }
  split. reflexivity. split. reflexivity.
  split. look G3; reflexivity. split. look G3; reflexivity.
  split. { look G3. rewrite V3. cbn. unfold thr, given. rewrite V1. reflexivity. cbn. intuition discriminate. }
  split. { apply A. rewrite G5. cbn. rewrite V5. cbn. look G3. unfold given. rewrite W. destruct (od_get "kernel" kw); reflexivity. cbn; auto. }
  split. { apply A. rewrite G5. cbn. rewrite V5. cbn. look G3. unfold given. rewrite W. destruct (od_get "max_increases" kw); reflexivity. cbn; auto. }
  assert (Z : forall k, In k ["num_steps"; "distance_threshold"; "acceptance_threshold"; "resampling"] -> od_get k x5 = od_get k kw).
  { intros k I. rewrite V5. assert (k <> "proposal" /\ k <> "max_increases" /\ ~ In k (map fst smc2_params)).
    { cbn in I. intuition (subst; try discriminate); cbn in *; intuition discriminate. }
    destruct H as (D1 & D2 & D3). destruct (String.eqb_spec k "proposal"); [congruence|]. destruct (String.eqb_spec k "max_increases"); [congruence|].
    rewrite V4, W; auto. cbn in *. tauto. }
  split. { apply A. rewrite G5. cbn. unfold given. rewrite Z by (cbn; auto). destruct (od_get "num_steps" kw); reflexivity. }
  split. { apply A. rewrite G5. cbn. unfold given. rewrite Z by (cbn; auto). destruct (od_get "distance_threshold" kw); reflexivity. }
  split. { apply A. rewrite G5. cbn. unfold given. rewrite Z by (cbn; auto). destruct (od_get "acceptance_threshold" kw); reflexivity. }
  rewrite B by (rewrite G5; reflexivity). look G6. unfold given. rewrite V6 by (cbn; intuition discriminate). rewrite Z by (cbn; auto).
  destruct (od_get "resampling" kw); reflexivity.
Qed.

(** The second half of NESSMC2. *)
Lemma second_ok : forall c f n kw, NoDup (names_of kw) -> incl (names_of kw) ness_names ->
  exists o, make_second (Some c) [f; PNone; n] kw = Ok o
    /\ o_class o = "NESS" /\ o_context o = c
    /\ get (o_args o) "filter_" = f /\ get (o_args o) "particles" = n
    /\ get (o_args o) "threshold" = given kw "threshold" (PNum (95 / 100))
    /\ get (o_kernel o) "kernel" = match given kw "kernel" (PObj "ShrinkingKernel") with PNone => PObj "NonShrinkingKernel" | k => k end
    /\ get (o_kernel o) "discrete" = given kw "discrete" (PObj "False").
Proof.
  intros c f n kw N S. unfold make_second.
  destruct (bind_ok make_params true [f; PNone; n] kw) as (e1 & E1 & G1).
  { cbn. lia. }
  { intros k I. apply S in I. intros J. cbn in I, J. intuition (subst; congruence). }
  { left. reflexivity. }
  { intros k I. required I. }
  rewrite E1. cbn [bind]. set (x1 := filter _ kw).
  assert (V1 : forall k, ~ In k (map fst make_params) -> od_get k x1 = od_get k kw).
  { intros k D. unfold x1. rewrite od_get_filter. apply is_name_false in D. rewrite D. reflexivity. }
  assert (S1 : incl (names_of x1) ness_names).
  { intros k I. apply names_filter in I. apply S. tauto. }
  assert (N1 : NoDup (names_of x1)) by (apply nodup_filter; auto).
  clearbody x1. unfold pop.
  set (ker := match od_get "kernel" x1 with Some v => v | None => PObj "ShrinkingKernel" end).
  set (thr := match od_get "threshold" (od_del "kernel" x1) with Some v => v | None => PNum (95 / 100) end).
  assert (T : thr = given kw "threshold" (PNum (95 / 100))).
  { unfold thr, given. rewrite od_get_del by auto. cbn. rewrite V1. reflexivity. cbn; intuition discriminate. }
  assert (K : ker = given kw "kernel" (PObj "ShrinkingKernel")).
  { unfold ker, given. rewrite V1. reflexivity. cbn; intuition discriminate. }
  set (x2 := od_del "threshold" (od_del "kernel" x1)).
  assert (S2 : forall k, In k (names_of x2) -> k = "discrete").
  { intros k I. unfold x2 in I. apply names_del in I; [|apply nodup_del; auto]. destruct I as [I D]. apply names_del in I; auto. destruct I as [I D'].
    apply S1 in I. cbn in I. byc I. }
  assert (V2 : od_get "discrete" x2 = od_get "discrete" kw).
  { unfold x2. rewrite od_get_del by (apply nodup_del; auto). cbn. rewrite od_get_del by auto. cbn. apply V1. cbn; intuition discriminate. }
  clearbody x2 thr ker.
  replace (get e1 "context") with PNone by (look G1; reflexivity).
  replace (get e1 "filter_") with f by (look G1; reflexivity).
  replace (get e1 "particles") with n by (look G1; reflexivity).
  rewrite star_ok. 2:{ intros k I. apply S2 in I. subst. intros J. cbn in J. intuition discriminate. }
  cbn [bind]. unfold ness.
  set (x3 := app [("kernel", ker); ("threshold", thr); ("context", PNone)] x2).
  assert (V3 : forall k, od_get k x3 = if String.eqb k "kernel" then Some ker else if String.eqb k "threshold" then Some thr
                          else if String.eqb k "context" then Some PNone else od_get k x2) by reflexivity.
  assert (S3 : forall k, In k (names_of x3) -> In k ["kernel"; "threshold"; "context"; "discrete"]).
  { intros k I. cbn in I. destruct I as [<-|[<-|[<-|I]]]; cbn; auto. apply S2 in I. auto. }
  clearbody x3.
  destruct (bind_ok ness_params true [f; n] x3) as (e3 & E3 & G3).
  { cbn. lia. }
  { intros k I. apply S3 in I. intros J. cbn in I, J. intuition (subst; congruence). }
  { left. reflexivity. }
  { intros k I. required I. }
  rewrite E3. cbn [bind]. set (x4 := filter _ x3).
  assert (V4 : forall k, ~ In k (map fst ness_params) -> od_get k x4 = od_get k x3).
  { intros k D. unfold x4. rewrite od_get_filter. apply is_name_false in D. rewrite D. reflexivity. }
  assert (S4 : forall k, In k (names_of x4) -> In k ["kernel"; "context"; "discrete"]).
  { intros k I. apply names_filter in I. destruct I as [I D]. apply S3 in I. cbn in I, D. cbn. byc I. }
  clearbody x4. unfold online.
  replace (get e3 "filter_") with f by (look G3; reflexivity).
  replace (get e3 "particles") with n by (look G3; reflexivity).
  replace (get e3 "threshold") with thr by (look G3; rewrite V3; reflexivity).
  destruct (bind_ok online_params false [f; n] x4) as (e5 & E5 & G5).
  { cbn. lia. }
  { intros k I. apply S4 in I. intros J. cbn in I, J. intuition (subst; congruence). }
  { right. intros k I. apply S4 in I. cbn in I. cbn. byc I. }
  { intros k I. required I. }
  rewrite E5. cbn [bind].
  replace (get e5 "context") with PNone by (look G5; rewrite V4, V3 by (cbn; intuition discriminate); reflexivity).
  cbn [resolve bind]. eexists. split. reflexivity. cbn [o_class o_context o_args o_kernel].
  split. reflexivity. split. reflexivity.
  split. { unfold get. cbn. rewrite G5. reflexivity. }
  split. { unfold get. cbn. rewrite G5. reflexivity. }
  split. { unfold get. cbn. exact T. }
  split. { replace (get e5 "kernel") with ker. rewrite <- K. reflexivity.
           look G5. rewrite V4, V3 by (cbn; intuition discriminate). reflexivity. }
  unfold get at 1. cbn. look G5. rewrite V4, V3 by (cbn; intuition discriminate). cbn. rewrite V2. unfold given.
  destruct (od_get "discrete" kw); reflexivity.
Qed.

(** NESSMC2: SMC2 and NESS around the same filter, number of particles and context, every keyword where it belongs. *)
Theorem C92_nessmc2_partial : forall c f n switch smc2_kw ness_kw,
  NoDup (names_of smc2_kw) -> incl (names_of smc2_kw) smc2_names -> NoDup (names_of ness_kw) -> incl (names_of ness_kw) ness_names ->
  exists first second, nessmc2 (Some c) f n switch smc2_kw ness_kw = Ok (first, second, switch)
    /\ o_class first = "SMC2" /\ o_class second = "NESS" /\ o_context first = c /\ o_context second = c
    /\ get (o_args first) "filter_" = f /\ get (o_args second) "filter_" = f
    /\ get (o_args first) "particles" = n /\ get (o_args second) "particles" = n
    /\ get (o_args first) "threshold" = given smc2_kw "threshold" (PNum (5 / 10))
    /\ get (o_args second) "threshold" = given ness_kw "threshold" (PNum (95 / 100))
    /\ get (o_kernel first) "proposal" = given smc2_kw "kernel" PNone
    /\ get (o_kernel first) "max_increases" = given smc2_kw "max_increases" (PNum 5)
    /\ get (o_kernel first) "num_steps" = given smc2_kw "num_steps" (PNum 1)
    /\ get (o_kernel first) "distance_threshold" = given smc2_kw "distance_threshold" PNone
    /\ get (o_kernel first) "acceptance_threshold" = given smc2_kw "acceptance_threshold" (PNum (2 / 10))
    /\ get (o_kernel first) "resampling" = given smc2_kw "resampling" (PObj "systematic")
    /\ get (o_kernel second) "kernel" = match given ness_kw "kernel" (PObj "ShrinkingKernel") with PNone => PObj "NonShrinkingKernel" | k => k end
    /\ get (o_kernel second) "discrete" = given ness_kw "discrete" (PObj "False").
Proof.
  intros c f n switch kw1 kw2 N1 S1 N2 S2. unfold nessmc2, combined. cbn [resolve bind].
  destruct (first_ok c f n kw1 N1 S1) as (o1 & E1 & P). rewrite E1. cbn [bind].
  destruct (second_ok c f n kw2 N2 S2) as (o2 & E2 & Q). rewrite E2. cbn [bind].
  exists o1, o2. split. reflexivity. tauto.
Qed.
Print Assumptions C92_nessmc2_partial.

(** A keyword for SMC2 that neither it nor its kernel knows, or that the combined algorithm sets itself, is refused. *)
Lemma first_bad : forall act f n kw k, NoDup (names_of kw) -> In k (names_of kw) -> ~ In k smc2_names ->
  (act <> None) -> make_first act [f; PNone; n] kw = Raise TypeError.
Proof.
  intros act f n kw k N I D A. unfold make_first.
  destruct (existsb (fun x => is_name (names_of (combine (map fst make_params) [f; PNone; n])) x) (names_of kw)) eqn:X.
  { apply existsb_exists in X. destruct X as (x & Ix & Jx). apply is_name_In in Jx.
    rewrite (bind_twice make_params true [f; PNone; n] kw x); auto. }
  assert (D0 : forall x, In x (names_of kw) -> ~ In x (names_of (combine (map fst make_params) [f; PNone; n]))).
  { intros x Ix Jx. apply is_name_In in Jx. assert (existsb (fun x => is_name (names_of (combine (map fst make_params) [f; PNone; n])) x) (names_of kw) = true).
    apply existsb_exists. exists x; auto. congruence. }
  destruct (bind_ok make_params true [f; PNone; n] kw) as (e1 & E1 & G1).
  { cbn. lia. } { exact D0. } { left. reflexivity. }
  { intros q J. required J. }
  rewrite E1. cbn [bind]. set (x1 := filter _ kw).
  assert (I1 : In k (names_of x1)). { apply names_filter. split. exact I. apply (D0 k I). }
  assert (N1 : NoDup (names_of x1)) by (apply nodup_filter; auto).
  assert (D1 : forall x, In x (names_of x1) -> ~ In x (map fst make_params)). { intros x Ix. apply names_filter in Ix. tauto. }
  clearbody x1. unfold pop. set (thr := match od_get "threshold" x1 with Some v => v | None => PNum (5 / 10) end).
  set (x2 := od_del "threshold" x1).
  assert (I2 : In k (names_of x2)). { apply names_del; auto. split; auto. intros ->. apply D. cbn. auto. }
  assert (D2 : forall x, In x (names_of x2) -> ~ In x (map fst make_params) /\ x <> "threshold").
  { intros x Ix. apply names_del in Ix; auto. destruct Ix. auto. }
  clearbody x2.
  replace (get e1 "context") with PNone by (look G1; reflexivity).
  replace (get e1 "filter_") with f by (look G1; reflexivity).
  replace (get e1 "particles") with n by (look G1; reflexivity).
  rewrite star_ok. 2:{ intros x Ix Jx. apply D2 in Ix. cbn in Ix, Jx. intuition. }
  cbn [bind]. unfold smc2. set (x3 := app [("threshold", thr); ("context", PNone)] x2).
  assert (I3 : In k (names_of x3)). { right. right. exact I2. }
  assert (Q3 : od_get "context" x3 = Some PNone) by reflexivity.
  assert (D3 : forall x, In x (names_of x3) -> x <> "filter_" /\ x <> "particles").
  { intros x Ix. destruct Ix as [<-|[<-|Ix]]; [split; discriminate|split; discriminate|]. apply D2 in Ix. cbn in Ix. split; intros ->; intuition. }
  clearbody x3.
  destruct (bind_ok smc2_params true [f; n] x3) as (e3 & E3 & G3).
  { cbn. lia. } { intros x Ix Jx. apply D3 in Ix. cbn in Jx. intuition. } { left. reflexivity. }
  { intros q J. required J. }
  rewrite E3. cbn [bind]. set (x4 := filter _ x3).
  assert (K1 : k <> "context"). { intros ->. apply (D0 "context" I). cbn. auto. }
  assert (I4 : In k (names_of x4)).
  { apply names_filter. split. exact I3. specialize (D3 k I3). intros J. apply D. cbn in J. cbn. intuition. }
  clearbody x4.
  replace (get e3 "context") with PNone by (look G3; rewrite Q3; reflexivity).
  destruct act as [c|]; [|congruence]. cbn [resolve bind].
  destruct (existsb (fun x => is_name ["proposal"; "max_increases"] x) (names_of x4)) eqn:Y.
  { apply existsb_exists in Y. destruct Y as (x & Ix & Jx). apply is_name_In in Jx. rewrite (star_bad _ _ x); auto. }
  assert (D4 : forall x, In x (names_of x4) -> ~ In x ["proposal"; "max_increases"]).
  { intros x Ix Jx. apply is_name_In in Jx. assert (existsb (fun x => is_name ["proposal"; "max_increases"] x) (names_of x4) = true).
    apply existsb_exists. exists x; auto. congruence. }
  rewrite star_ok by (intros x Ix; apply D4; auto). cbn [bind]. unfold particle_mh.
  set (x5 := app [("proposal", get e3 "kernel"); ("max_increases", get e3 "max_increases")] x4).
  assert (I5 : In k (names_of x5)). { right. right. exact I4. } 
  clearbody x5.
  destruct (bind_ok pmh_params true [] x5) as (e5 & E5 & G5).
  { cbn. lia. } { intros x Ix J. exact J. } { left. reflexivity. }
  { intros q J. required J. }
  rewrite E5. cbn [bind].
  rewrite (bind_bad base_kernel_params [] _ k). reflexivity.
  { cbn; lia. }
  { apply names_filter. split. exact I5. specialize (D4 k I4). intros J. apply D. cbn in J, D4. cbn. intuition. }
  { intros J. apply D. cbn in J. cbn. intuition. }
Qed.

(** The same for the keywords of NESS. *)
Lemma second_bad : forall act f n kw k, NoDup (names_of kw) -> In k (names_of kw) -> ~ In k ness_names ->
  make_second act [f; PNone; n] kw = Raise TypeError.
Proof.
  intros act f n kw k N I D. unfold make_second.
  destruct (existsb (fun x => is_name (names_of (combine (map fst make_params) [f; PNone; n])) x) (names_of kw)) eqn:X.
  { apply existsb_exists in X. destruct X as (x & Ix & Jx). apply is_name_In in Jx.
    rewrite (bind_twice make_params true [f; PNone; n] kw x); auto. }
  assert (D0 : forall x, In x (names_of kw) -> ~ In x (names_of (combine (map fst make_params) [f; PNone; n]))).
  { intros x Ix Jx. apply is_name_In in Jx. assert (existsb (fun x => is_name (names_of (combine (map fst make_params) [f; PNone; n])) x) (names_of kw) = true).
    apply existsb_exists. exists x; auto. congruence. }
  destruct (bind_ok make_params true [f; PNone; n] kw) as (e1 & E1 & G1).
  { cbn. lia. } { exact D0. } { left. reflexivity. }
  { intros q J. required J. }
  rewrite E1. cbn [bind]. set (x1 := filter _ kw).
  assert (I1 : In k (names_of x1)). { apply names_filter. split. exact I. apply (D0 k I). }
  assert (N1 : NoDup (names_of x1)) by (apply nodup_filter; auto).
  assert (D1 : forall x, In x (names_of x1) -> ~ In x (map fst make_params)). { intros x Ix. apply names_filter in Ix. tauto. }
  clearbody x1. unfold pop.
  set (ker := match od_get "kernel" x1 with Some v => v | None => PObj "ShrinkingKernel" end).
  set (thr := match od_get "threshold" (od_del "kernel" x1) with Some v => v | None => PNum (95 / 100) end).
  set (x2 := od_del "threshold" (od_del "kernel" x1)).
  assert (I2 : In k (names_of x2)).
  { apply names_del. apply nodup_del; auto. split. 2:{ intros ->. apply D. cbn. auto. }
    apply names_del; auto. split; auto. intros ->. apply D. cbn. auto. }
  assert (D2 : forall x, In x (names_of x2) -> ~ In x (map fst make_params) /\ x <> "threshold" /\ x <> "kernel").
  { intros x Ix. apply names_del in Ix; [|apply nodup_del; auto]. destruct Ix as [Ix A]. apply names_del in Ix; auto. destruct Ix. auto. }
  clearbody x2 ker thr.
  replace (get e1 "context") with PNone by (look G1; reflexivity).
  replace (get e1 "filter_") with f by (look G1; reflexivity).
  replace (get e1 "particles") with n by (look G1; reflexivity).
  rewrite star_ok. 2:{ intros x Ix Jx. apply D2 in Ix. cbn in Ix, Jx. intuition (subst; auto 10). }
  cbn [bind]. unfold ness. set (x3 := app [("kernel", ker); ("threshold", thr); ("context", PNone)] x2).
  assert (I3 : In k (names_of x3)). { right. right. right. exact I2. }
  assert (D3 : forall x, In x (names_of x3) -> x <> "filter_" /\ x <> "particles").
  { intros x Ix. destruct Ix as [<-|[<-|[<-|Ix]]]; [split; discriminate|split; discriminate|split; discriminate|]. apply D2 in Ix. cbn in Ix. split; intros ->; intuition. }
  clearbody x3.
  destruct (bind_ok ness_params true [f; n] x3) as (e3 & E3 & G3).
  { cbn. lia. } { intros x Ix Jx. apply D3 in Ix. cbn in Jx. intuition. } { left. reflexivity. }
  { intros q J. required J. }
  rewrite E3. cbn [bind]. unfold online.
  rewrite (bind_bad online_params _ _ k). reflexivity.
  { cbn; lia. }
  { apply names_filter. split. exact I3. specialize (D3 k I3). intros J. apply D. cbn in J. cbn. intuition. }
  { intros J. destruct (D2 k I2) as (A & B & C). apply D. cbn in A, J. cbn. intuition. }
Qed.

Theorem C92_unknown_refused : forall c f n switch smc2_kw ness_kw k, NoDup (names_of smc2_kw) -> NoDup (names_of ness_kw) ->
  In k (names_of smc2_kw) /\ ~ In k smc2_names \/ In k (names_of ness_kw) /\ ~ In k ness_names ->
  nessmc2 (Some c) f n switch smc2_kw ness_kw = Raise TypeError.
Proof.
  intros c f n switch kw1 kw2 k N M H. unfold nessmc2, combined. cbn [resolve bind].
  destruct (existsb (fun x => negb (is_name smc2_names x)) (names_of kw1)) eqn:X.
  { apply existsb_exists in X. destruct X as (x & Ix & Jx). apply negb_true_iff in Jx. apply is_name_false in Jx.
    rewrite (first_bad _ _ _ _ x); auto. discriminate. }
  assert (S : incl (names_of kw1) smc2_names).
  { intros x Ix. apply is_name_In. destruct (is_name smc2_names x) eqn:E; auto.
    assert (existsb (fun x => negb (is_name smc2_names x)) (names_of kw1) = true). apply existsb_exists. exists x. rewrite E. auto. congruence. }
  destruct H as [[I D]|[I D]]. contradict D. auto.
  destruct (first_ok c f n kw1 N S) as (o & E & _). rewrite E. cbn [bind]. rewrite (second_bad _ _ _ _ k); auto.
Qed.
Print Assumptions C92_unknown_refused.

(** FixedWidthNESS by itself. *)
Theorem C92_fixed_width : forall active f n kw, incl (names_of kw) ["block_len"; "kernel"; "discrete"; "context"] ->
  match (match given kw "context" PNone with PNone => active | c => Some c end) with
  | None => fixed_width active [f; n] kw = Raise GenericException
  | Some c => exists o, fixed_width active [f; n] kw = Ok o
      /\ o_class o = "FixedWidthNESS" /\ o_context o = c
      /\ get (o_args o) "filter_" = f /\ get (o_args o) "particles" = n
      /\ get (o_args o) "block_len" = given kw "block_len" (PNum 125)
      /\ get (o_kernel o) "kernel" = match given kw "kernel" PNone with PNone => PObj "NonShrinkingKernel" | k => k end
      /\ get (o_kernel o) "discrete" = given kw "discrete" (PObj "False")
  end.
Proof.
  intros act f n kw S. unfold fixed_width.
  destruct (bind_ok fixed_width_params true [f; n] kw) as (e3 & E3 & G3).
  { cbn. lia. }
  { intros k I. apply S in I. intros J. cbn in I, J. intuition (subst; congruence). }
  { left. reflexivity. }
  { intros k I. required I. }
  rewrite E3. cbn [bind]. set (x4 := filter _ kw).
  assert (V4 : forall k, ~ In k (map fst fixed_width_params) -> od_get k x4 = od_get k kw).
  { intros k D. unfold x4. rewrite od_get_filter. apply is_name_false in D. rewrite D. reflexivity. }
  assert (S4 : forall k, In k (names_of x4) -> In k ["kernel"; "context"; "discrete"]).
  { intros k I. apply names_filter in I. destruct I as [I D]. apply S in I. cbn in I, D. cbn. byc I. }
  clearbody x4. unfold online.
  replace (get e3 "filter_") with f by (look G3; reflexivity).
  replace (get e3 "particles") with n by (look G3; reflexivity).
  replace (get e3 "block_len") with (given kw "block_len" (PNum 125)) by (look G3; unfold given; destruct (od_get "block_len" kw); reflexivity).
  destruct (bind_ok online_params false [f; n] x4) as (e5 & E5 & G5).
  { cbn. lia. }
  { intros k I. apply S4 in I. intros J. cbn in I, J. intuition (subst; congruence). }
  { right. intros k I. apply S4 in I. cbn in I. cbn. byc I. }
  { intros k I. required I. }
  rewrite E5. cbn [bind].
  assert (Q : forall k, In k ["kernel"; "context"; "discrete"] -> get e5 k = given kw k (match od_get k online_params with Some (Some v) => v | _ => PNone end)).
  { intros k I. unfold get, given. rewrite G5. rewrite V4. 2:{ cbn in I |- *. intuition (subst; discriminate). }
    destruct I as [<-|[<-|[<-|[]]]]; cbn; match goal with |- context [od_get ?k kw] => destruct (od_get k kw) end; reflexivity. }
  rewrite !Q by (cbn; auto). cbn [od_get online_params String.eqb Ascii.eqb Bool.eqb].
  destruct (given kw "context" PNone) as [|r|x] eqn:C; cbn [resolve bind].
  - destruct act as [c|]; cbn [bind]; [|reflexivity]. eexists. split. reflexivity. cbn [o_class o_context o_args o_kernel].
    repeat split; try (unfold get; cbn; rewrite ?G5; reflexivity).
  - eexists. split. reflexivity. cbn [o_class o_context o_args o_kernel].
    repeat split; try (unfold get; cbn; rewrite ?G5; reflexivity).
  - eexists. split. reflexivity. cbn [o_class o_context o_args o_kernel].
    repeat split; try (unfold get; cbn; rewrite ?G5; reflexivity).
Qed.
Print Assumptions C92_fixed_width.

(** Arguments by position: the third one of NESS and FixedWidthNESS is the threshold and the block length, there is no fourth; a
    class that takes the initializer of BaseOnlineAlgorithm over has the kernel, the discrete flag and the context there. *)
Theorem C92_positional : forall active class f n a b d kw, active <> None ->
  (exists o, ness active [f; n; a] [] = Ok o /\ get (o_args o) "filter_" = f /\ get (o_args o) "particles" = n
     /\ get (o_args o) "threshold" = a)
  /\ (exists o, fixed_width active [f; n; a] [] = Ok o /\ get (o_args o) "filter_" = f /\ get (o_args o) "particles" = n
     /\ get (o_args o) "block_len" = a)
  /\ ness active [f; n; a; b] kw = Raise TypeError /\ fixed_width active [f; n; a; b] kw = Raise TypeError
  /\ (a <> PNone -> d <> PNone -> exists o, online active class [] [f; n; a; b; d] [] = Ok o /\ o_class o = class
     /\ get (o_args o) "filter_" = f /\ get (o_args o) "particles" = n
     /\ get (o_kernel o) "kernel" = a /\ get (o_kernel o) "discrete" = b /\ o_context o = d).
Proof.
  intros active class f n a b d kw A. destruct active as [c|]; [|congruence].
  split; [eexists; repeat split; reflexivity|]. split; [eexists; repeat split; reflexivity|].
  split; [reflexivity|]. split; [reflexivity|]. intros NA ND.
  destruct a; [congruence| |]; (destruct d; [congruence| |]); eexists; repeat split; reflexivity.
Qed.
Print Assumptions C92_positional.

(** Outside of a context there is no way to build one: the classes take no context. *)
Theorem C92_context_required : forall f n switch smc2_kw ness_kw,
  nessmc2 None f n switch smc2_kw ness_kw = Raise GenericException /\ smc2fw None f n switch smc2_kw ness_kw = Raise GenericException.
Proof. intros. split; reflexivity. Qed.
Print Assumptions C92_context_required.

(** SMC2FW cannot be built at all. *)
Lemma second_fw_raises : forall act a b c kw, make_second_fw act [a; b; c] kw = Raise TypeError.
Proof. reflexivity. Qed.
Theorem C92_smc2fw_refuted : forall act f n switch smc2_kw ness_kw r, smc2fw act f n switch smc2_kw ness_kw <> Ok r.
Proof.
  intros act f n switch kw1 kw2 r. unfold smc2fw, combined. destruct (resolve act PNone); cbn [bind]; [|discriminate].
  destruct (make_first act [f; PNone; n] kw1); cbn [bind]; [|discriminate]. rewrite second_fw_raises. discriminate.
Qed.
Print Assumptions C92_smc2fw_refuted.
Theorem C92_smc2fw_error_refuted : forall c f n switch smc2_kw ness_kw,
  NoDup (names_of smc2_kw) -> incl (names_of smc2_kw) smc2_names ->
  smc2fw (Some c) f n switch smc2_kw ness_kw = Raise TypeError.
Proof.
  intros c f n switch kw1 kw2 N S. unfold smc2fw, combined. cbn [resolve bind].
  destruct (first_ok c f n kw1 N S) as (o & E & _). rewrite E. reflexivity.
Qed.
Print Assumptions C92_smc2fw_error_refuted.

(** SMC2 with two proposal steps, NESS with a kernel of one's own; and the same for SMC2FW with its block length. *)
Example C92_nonvacuous : exists first second,
  nessmc2 (Some (PObj "context")) (PObj "filter") (PNum 100) (PNum 500) [("num_steps", PNum 2); ("threshold", PNum (1 / 4))] [("kernel", PObj "mine")]
    = Ok (first, second, PNum 500)
  /\ get (o_kernel first) "num_steps" = PNum 2 /\ get (o_args first) "threshold" = PNum (1 / 4)
  /\ get (o_kernel second) "kernel" = PObj "mine" /\ get (o_args second) "threshold" = PNum (95 / 100)
  /\ smc2fw (Some (PObj "context")) (PObj "filter") (PNum 100) (PNum 500) [] [("block_len", PNum 10)] = Raise TypeError
  /\ nessmc2 (Some (PObj "context")) (PObj "filter") (PNum 100) (PNum 500) [("proposal", PObj "mine")] [] = Raise TypeError.
Proof. eexists. eexists. repeat split. Qed.
