(** Facts about the model of prior.py:161-225. *)
From Coq Require Import String List Bool Arith Lia.
From Verif.Model Require Import Base Xf Mixin.
From Verif.Spec Require Import MixinSpec.
Import ListNotations.
Local Open Scope nat_scope.

Lemma mem_iff k l : mem k l = true <-> In k l.
Proof. unfold mem. rewrite existsb_exists. split; [intros (x & I & E); apply String.eqb_eq in E; now subst|intros I; exists k; split; [auto|apply String.eqb_refl]]. Qed.
Lemma get_in {V} k (d : odict V) v : od_get k d = Some v -> In (k, v) d.
Proof. induction d as [|[k' v'] d IH]; cbn; [discriminate|]. destruct (String.eqb_spec k k'); [intros [= <-]; left; now subst|right; auto]. Qed.
Lemma get_none {V} k (d : odict V) : od_get k d = None <-> ~ In k (map fst d).
Proof. induction d as [|[k' v'] d IH]; cbn; [tauto|]. destruct (String.eqb_spec k k'); [subst; split; [discriminate|tauto]|]. rewrite IH. split; intros H; [intros [E|I]; [congruence|tauto]|tauto]. Qed.
Lemma mem_keys {V} k (d : odict V) : od_mem k d = true <-> In k (map fst d).
Proof.
  unfold od_mem. destruct (od_get k d) as [v|] eqn:E.
  - split; [intros _|auto]. apply get_in in E. apply in_map_iff. now exists (k, v).
  - apply get_none in E. split; [discriminate|tauto].
Qed.
Lemma get_table {V} (f : string -> V) l k : od_get k (map (fun k => (k, f k)) l) = if mem k l then Some (f k) else None.
Proof. induction l as [|a l IH]; cbn; [reflexivity|]. destruct (String.eqb_spec k a) as [->|E]; cbn; [reflexivity|exact IH]. Qed.
Lemma get_mapped {A B} (f : A -> B) (d : odict A) k : od_get k (map (fun p => (fst p, f (snd p))) d) = option_map f (od_get k d).
Proof. induction d as [|[k' v] d IH]; cbn; [reflexivity|]. destruct (String.eqb k k'); [reflexivity|exact IH]. Qed.

(** * Broadcasting *)
Lemma common_each l n : common_size l = Ok n -> forall a, In a l -> a = n \/ a = 1.
Proof.
  revert n. induction l as [|a l IH]; cbn; intros n E b I; [destruct I|]. destruct (common_size l) as [m|] eqn:Em; [|discriminate]. cbn in E.
  destruct (Nat.eqb_spec a m); [injection E as <-; destruct I as [<-|I]; [auto|now apply IH]|].
  destruct (Nat.eqb_spec a 1); [injection E as <-; destruct I as [<-|I]; [auto|now apply IH]|].
  destruct (Nat.eqb_spec m 1); [|discriminate]. injection E as <-. destruct I as [<-|I]; [auto|]. destruct (IH m eq_refl b I); subst; auto.
Qed.
Lemma common_all l n : l <> [] -> (forall a, In a l -> a = n) -> common_size l = Ok n.
Proof.
  induction l as [|a l IH]; [congruence|]. intros _ H. cbn. destruct l as [|b l].
  - cbn. rewrite (H a) by now left. destruct (Nat.eqb_spec n 1); [now subst|]. reflexivity.
  - rewrite IH; [|congruence|intros; apply H; now right]. cbn [bind]. rewrite (H a) by now left. now rewrite Nat.eqb_refl.
Qed.
Lemma expand_length n t : List.length (dt_data t) = n \/ List.length (dt_data t) = 1 -> List.length (dt_data (expand n t)) = n.
Proof. unfold expand. destruct (dt_data t) as [|x [|y l]] eqn:E; cbn; try rewrite E; cbn; intros [H|H]; try lia; apply repeat_length. Qed.
Lemma expand_id n t : List.length (dt_data t) = n -> expand n t = t.
Proof. unfold expand. destruct t as [[|x [|y l]] d]; cbn; intros <-; reflexivity. Qed.
Lemma broadcast_lengths args r : broadcast_all args = Ok r -> exists n, forall p, In p r -> List.length (dt_data (snd p)) = n.
Proof.
  unfold broadcast_all. destruct common_size as [n|] eqn:E; [|discriminate]. cbn. intros [= <-]. exists n. intros p I. apply in_map_iff in I. destruct I as (q & <- & I).
  cbn. apply expand_length. eapply common_each; [exact E|]. apply in_map_iff. eauto.
Qed.
Lemma broadcast_keys args r : broadcast_all args = Ok r -> map fst r = map fst args.
Proof. unfold broadcast_all. destruct common_size as [n|]; [|discriminate]. cbn. intros [= <-]. now rewrite map_map. Qed.
Lemma broadcast_same args n : (forall p, In p args -> List.length (dt_data (snd p)) = n) -> broadcast_all args = Ok args.
Proof.
  intros H. unfold broadcast_all. destruct args as [|p args]; [reflexivity|].
  rewrite (common_all _ n); [|discriminate|intros a I; apply in_map_iff in I; destruct I as (q & <- & I); auto]. cbn [bind]. f_equal.
  rewrite <- (map_id (p :: args)) at 2. apply map_ext_in. intros [k t] I. cbn. now rewrite expand_id by apply (H _ I).
Qed.

(** * The arguments that are collected *)
Lemma moved_ok o dev keys : (forall k, In k keys -> exists v, get_arg o k = Ok v) -> exists ps, moved_args o dev keys = Ok ps.
Proof.
  induction keys as [|k r IH]; intros H; [eexists; reflexivity|]. cbn. destruct (H k) as [v ->]; [now left|]. cbn.
  destruct IH as [ps E]; [intros; apply H; now right|]. rewrite E. destruct v; cbn; eauto.
Qed.
Lemma moved_keys o dev keys ps : moved_args o dev keys = Ok ps ->
  forall k, In k (map fst ps) <-> In k keys /\ exists t, get_arg o k = Ok (Some t).
Proof.
  revert ps. induction keys as [|a r IH]; cbn; intros ps E k; [injection E as <-; cbn; tauto|].
  destruct (get_arg o a) as [[t|]|] eqn:G; cbn in E; [| |discriminate].
  - destruct (moved_args o dev r) as [q|]; [|discriminate]. injection E as <-. cbn. rewrite (IH q eq_refl). split.
    + intros [<-|[I X]]; [split; [auto|eauto]|auto].
    + intros [[<-|I] X]; auto.
  - rewrite (IH ps E). split; [tauto|]. intros [[<-|I] [t X]]; [congruence|split; eauto].
Qed.
Lemma moved_get o dev keys ps : moved_args o dev keys = Ok ps ->
  forall k, In k keys -> od_get k ps = match get_arg o k with Ok (Some t) => Some (DTensor (dt_data t) dev) | _ => None end.
Proof.
  revert ps. induction keys as [|a r IH]; cbn; intros ps E k I; [destruct I|].
  destruct (get_arg o a) as [[t|]|] eqn:G; cbn in E; [| |discriminate].
  - destruct (moved_args o dev r) as [q|] eqn:Eq; [|discriminate]. injection E as <-. cbn. destruct (String.eqb_spec k a) as [->|N]; [now rewrite G|].
    destruct I as [->|I]; [congruence|]. now apply IH.
  - destruct I as [<-|I]; [|now apply IH]. rewrite G. apply get_none. intros X. apply (moved_keys o dev r ps E) in X. destruct X as [_ [t X]]. congruence.
Qed.
Lemma moved_in o dev keys ps p : moved_args o dev keys = Ok ps -> In p ps -> exists t, get_arg o (fst p) = Ok (Some t) /\ snd p = DTensor (dt_data t) dev.
Proof.
  revert ps. induction keys as [|a r IH]; cbn; intros ps E I; [injection E as <-; destruct I|].
  destruct (get_arg o a) as [[t|]|] eqn:G; cbn in E; [| |discriminate]; [|eauto].
  destruct (moved_args o dev r) as [q|]; [|discriminate]. injection E as <-. destruct I as [<-|I]; [cbn; eauto|eauto].
Qed.

(** * Constructors of plain classes *)
Lemma construct_plain c dflt v args : k_choice c = [] ->
  construct c dflt v args =
    if negb (forallb (fun p => mem (fst p) (k_required c ++ k_optional c)) args) then Raise TypeError
    else if negb (forallb (fun k => od_mem k args) (k_required c)) then Raise TypeError
    else let! args := broadcast_all args in
         let d := map (fun k => (k, od_get k args)) (k_required c ++ k_optional c) in
         let b := match v with Some b => b | None => dflt end in
         if b && negb (checks c d) then Raise ValueError else Ok (DObj c d b).
Proof. intros E. unfold construct. rewrite E. cbn [filter]. rewrite !app_nil_r. reflexivity. Qed.
Lemma built_plain c dflt v args o : k_choice c = [] -> construct c dflt v args = Ok o ->
  exists bs n, o_class o = c /\ o_dict o = map (fun k => (k, od_get k bs)) (k_required c ++ k_optional c) /\
    (forall k, In k (k_required c) -> exists t, od_get k bs = Some t) /\
    (forall p, In p bs -> List.length (dt_data (snd p)) = n) /\ o_validate o = match v with Some b => b | None => dflt end.
Proof.
  intros E. rewrite construct_plain by auto. destruct forallb eqn:E1; [|discriminate]. cbn [negb]. destruct (forallb _ (k_required c)) eqn:E2; [|discriminate]. cbn [negb].
  destruct (broadcast_all args) as [bs|] eqn:B; [|discriminate]. cbn [bind]. intros H. destruct (broadcast_lengths _ _ B) as [n L]. exists bs, n.
  destruct (_ && _); [discriminate|]. injection H as <-. cbn. repeat split; auto.
  intros k I. rewrite forallb_forall in E2. specialize (E2 k I). apply mem_keys in E2. rewrite <- (broadcast_keys _ _ B) in E2.
  destruct (od_get k bs) eqn:G; [eauto|]. apply get_none in G. tauto.
Qed.
