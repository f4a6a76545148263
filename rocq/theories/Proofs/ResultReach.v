(** Every reachable result satisfies the sharing invariant. *)
From Coq Require Import Reals List Bool Arith ZArith String Lia.
From Verif.Model Require Import Base Xf Container Result.
From Verif.Spec Require ContainerSpec.
From Verif.Spec Require Import ResultSpec.
From Verif.Proofs Require Import ResultProofs.
Import ListNotations.
Local Open Scope list_scope.
Local Open Scope nat_scope.

Lemma make_dequeue_items {A} m (d : dq A) : make_dequeue m = Ok d -> dq_items d = [].
Proof. destruct m as [|[]|z]; cbn; intros H; try (injection H as <-; reflexivity). destruct (z <? 0)%Z; [discriminate|now injection H as <-]. Qed.
Lemma make_dequeue_ok {A} m : valid_setting m -> exists d : dq A, make_dequeue m = Ok d.
Proof. destruct m as [|[]|z]; cbn; intros H; try (eexists; reflexivity). destruct (Z.ltb_spec z 0); [lia|eexists; reflexivity]. Qed.
Lemma make_dequeue_valid {A} m (d : dq A) : make_dequeue m = Ok d -> valid_setting m.
Proof. destruct m as [|[]|z]; cbn; intros H; auto. destruct (Z.ltb_spec z 0); [discriminate|lia]. Qed.

(** The empty result made by the constructor before its first [append]. *)
Definition empty_result (h : heap) (o : addr) (dm ds : dq addr) : result :=
  Result (s_ll (obj h o)) (Cont [] [("filter_means"%string, dm); ("filter_variances"%string, dm)]) ds.
Lemma init_result_eq h o rs rm dm ds : make_dequeue rm = Ok dm -> make_dequeue rs = Ok ds ->
  init_result h o rs rm = append h (empty_result h o dm ds) o.
Proof.
  intros E1 E2. unfold init_result, make_deque. rewrite E1, E2. reflexivity.
Qed.
Lemma init_result_inv h o rs rm x : init_result h o rs rm = Ok x ->
  exists dm ds, make_dequeue rm = Ok dm /\ make_dequeue rs = Ok ds /\ append h (empty_result h o dm ds) o = Ok x.
Proof.
  intros E. pose proof E as E'. unfold init_result, make_deque in E.
  destruct (make_dequeue rm) as [dm|] eqn:E1; [|discriminate]. cbn [bind] in E.
  destruct (make_dequeue rs) as [ds|] eqn:E2; [|discriminate]. exists dm, ds.
  split; [reflexivity|]. split; [reflexivity|]. rewrite <- E'. symmetry. now apply init_result_eq.
Qed.

Lemma fresh_state_spec b h time x w ll inds mean var h1 o :
  List.length x = b -> List.length w = b -> List.length ll = b -> List.length inds = b ->
  List.length mean = b -> List.length var = b ->
  fresh_state h time x w ll inds mean var = (h1, o) ->
  grows h h1 /\ o = osize h /\ osize h1 = S (osize h) /\ (forall k, k < osize h -> obj h1 k = obj h k) /\
  obj_batched b h1 (obj h1 o) /\ (forall a, In a (fields (obj h1 o)) -> size h <= a) /\ NoDup (fields (obj h1 o)) /\
  view h1 o = SView time x w ll inds mean var.
Proof.
  intros L1 L2 L3 L4 L5 L6 E. unfold fresh_state, alloc, alloc_obj in E. destruct h as [T O]. cbn [h_tens h_objs] in E.
  injection E as <- <-. unfold grows, osize, size, view, obj_batched, batched, obj, get. cbn [h_tens h_objs].
  rewrite (app_nth2 O) by lia. rewrite Nat.sub_diag. cbn [nth fields s_time s_x s_w s_ll s_inds s_mean s_var].
  split; [rewrite <- !app_assoc; eexists; reflexivity|]. split; [reflexivity|].
  split; [rewrite app_length; cbn; lia|].
  split; [intros k Hk; now rewrite app_nth1|].
  assert (G : forall k, nth (List.length T + k) ((((((T ++ [x]) ++ [w]) ++ [ll]) ++ [inds]) ++ [mean]) ++ [var]) []
              = nth k [x; w; ll; inds; mean; var] []).
  { intros k. rewrite <- !app_assoc. cbn [app]. rewrite app_nth2 by lia. f_equal. lia. }
  rewrite !app_length. cbn [List.length].
  split.
  { unfold fields; cbn [In s_x s_w s_ll s_inds s_mean s_var].
    intros a Ha.
    assert (Hk : exists k, k < 6 /\ a = List.length T + k).
    { exists (a - List.length T). intuition lia. }
    destruct Hk as (k & Hk & ->). split; [lia|]. rewrite G.
    do 6 (destruct k as [|k]; [assumption|]). lia. }
  split; [unfold fields; cbn [In s_x s_w s_ll s_inds s_mean s_var]; intros a Ha; intuition lia|].
  split; [unfold fields; cbn [s_x s_w s_ll s_inds s_mean s_var]; repeat constructor; cbn [In]; intuition lia|].
  f_equal.
  - now rewrite <- (Nat.add_0_r (List.length T)), G.
  - now rewrite G.
  - now replace (List.length T + 1 + 1) with (List.length T + 2) by lia; rewrite G.
  - now replace (List.length T + 1 + 1 + 1) with (List.length T + 3) by lia; rewrite G.
  - now replace (List.length T + 1 + 1 + 1 + 1) with (List.length T + 4) by lia; rewrite G.
  - now replace (List.length T + 1 + 1 + 1 + 1 + 1) with (List.length T + 5) by lia; rewrite G.
Qed.

(** Starting a result from any state of [b] filters whose own tensors are pairwise different. *)
Lemma init_inv b h o rs rm h' r : o < osize h -> obj_batched b h (obj h o) -> NoDup (fields (obj h o)) ->
  init_result h o rs rm = Ok (h', r) -> Inv b h' r o.
Proof.
  intros Ho Hb Hn E. destruct (init_result_inv _ _ _ _ _ E) as (dm & ds & E1 & E2 & Ea).
  pose proof (make_dequeue_items _ _ E1) as I1. pose proof (make_dequeue_items _ _ E2) as I2.
  assert (W : with_deques (empty_result h o dm ds) dm dm) by reflexivity.
  assert (Hrec : recorded (empty_result h o dm ds) = [s_ll (obj h o)]).
  { rewrite (with_recorded _ _ _ W), I1. reflexivity. }
  assert (Hmo : moments (empty_result h o dm ds) = []) by (unfold recorded in Hrec; now injection Hrec).
  assert (Hap : apart (empty_result h o dm ds) (obj h o)).
  { pose proof Hn as N. unfold fields in N.
    repeat match goal with H : NoDup (_ :: _) |- _ => inversion H; clear H; subst end. cbn [In] in *.
    constructor; rewrite ?Hrec, ?Hmo, ?(with_means _ _ _ W), ?(with_vars _ _ _ W), ?I1; cbn [In r_ll empty_result]; try assumption;
      try tauto; try (intuition congruence). }
  eapply (append_inv b h (empty_result h o dm ds) o o dm dm h' r W); try eassumption.
  - intros a. rewrite Hrec. intros [<-|[]]. apply Hb. cbn; tauto.
  - rewrite Hrec. constructor; [intros []|constructor].
  - unfold objects, empty_result. cbn [r_states]. rewrite I2. intros j [<-|[]]. now split.
  - unfold objects, empty_result. cbn [r_states]. rewrite I2. intros j [<-|[]]. exact Hap.
  - cbn [empty_result r_states]. rewrite I2. constructor.
  - cbn [empty_result r_states]. rewrite I2. intros [].
  - rewrite Hrec. unfold fields in Hn. repeat match goal with H : NoDup (_ :: _) |- _ => inversion H; clear H; subst end.
    cbn [In] in *. intuition.
  - rewrite Hrec. unfold fields in Hn. repeat match goal with H : NoDup (_ :: _) |- _ => inversion H; clear H; subst end.
    cbn [In] in *. intuition.
  - cbn [empty_result r_states]. rewrite I2. intros j [].
Qed.

(** ** Exchanging *)

Definition merge (mask : list bool) (old new : tensor) : tensor :=
  map (fun p : bool * cell * cell => if fst (fst p) then snd p else snd (fst p)) (combine (combine mask old) new).
Lemma mask_set_inv t u mask v : mask_set t u mask = Ok v ->
  List.length mask = List.length t /\ List.length u = List.length t /\ v = merge mask t u.
Proof.
  unfold mask_set. destruct (Nat.eqb_spec (List.length mask) (List.length t)); [|discriminate].
  destruct (Nat.eqb_spec (List.length u) (List.length t)); [|discriminate]. intros H. now injection H as <-.
Qed.
Lemma length_merge mask t u : List.length mask = List.length t -> List.length u = List.length t ->
  List.length (merge mask t u) = List.length t.
Proof. intros A B. unfold merge. rewrite map_length, !combine_length. lia. Qed.

(** Writes keep sizes, objects and the number of entries of every tensor. *)
Definition same_shape (h h' : heap) : Prop :=
  size h' = size h /\ h_objs h' = h_objs h /\ forall a, List.length (get h' a) = List.length (get h a).
Lemma same_shape_refl h : same_shape h h.
Proof. repeat split. Qed.
Lemma same_shape_trans h1 h2 h3 : same_shape h1 h2 -> same_shape h2 h3 -> same_shape h1 h3.
Proof. intros (A & B & C) (A' & B' & C'). repeat split; congruence. Qed.
Lemma mask_write_shape mask h p h' : mask_write mask h p = Ok h' -> same_shape h h'.
Proof.
  unfold mask_write. destruct (mask_set _ _ mask) as [v|] eqn:E; [|discriminate]. cbn [bind]. intros H. injection H as <-.
  apply mask_set_inv in E. destruct E as (L1 & L2 & ->). split; [apply length_upd|]. split; [reflexivity|].
  intros a. unfold set, get. cbn [h_tens]. destruct (lt_dec (fst p) (List.length (h_tens h))) as [Hl|Hl].
  - rewrite nth_upd by exact Hl. destruct (Nat.eqb_spec a (fst p)) as [->|]; [|reflexivity]. now apply length_merge.
  - rewrite nth_upd_out by lia. reflexivity.
Qed.
Lemma foldM_shape {A} (f : heap -> A -> res heap) l : (forall h x h', f h x = Ok h' -> same_shape h h') ->
  forall h h', foldM f l h = Ok h' -> same_shape h h'.
Proof.
  intros Hf. induction l as [|x l IH]; intros h h' E; cbn [foldM] in E.
  - injection E as <-. apply same_shape_refl.
  - destruct (f h x) as [h1|] eqn:E1; [|discriminate]. cbn [bind] in E. eapply same_shape_trans; [eapply Hf|eapply IH]; eassumption.
Qed.
Lemma exchange_shape h r other mask h' : exchange h r other mask = Ok h' -> same_shape h h'.
Proof.
  unfold exchange. destruct (mask_write mask h (r_ll r, r_ll other)) as [h1|] eqn:E1; [|discriminate]. cbn [bind].
  destruct (foldM (mask_write mask) _ h1) as [h2|] eqn:E2; [|discriminate]. cbn [bind]. intros E3.
  eapply same_shape_trans; [eapply mask_write_shape; eassumption|].
  eapply same_shape_trans; [eapply (foldM_shape _ _ (mask_write_shape mask)); eassumption|].
  eapply foldM_shape; [|eassumption]. intros h3 x h4 E. unfold state_exchange in E.
  eapply (foldM_shape _ _ (mask_write_shape mask)); eassumption.
Qed.

Lemma same_shape_inv b h h' r o : same_shape h h' -> Inv b h r o -> Inv b h' r o.
Proof.
  intros (S & O & L) [H1 H2 H3 H4 H5 H6].
  assert (Ob : forall k, obj h' k = obj h k) by (intros k; unfold obj; now rewrite O).
  assert (Bt : forall a, batched b h a -> batched b h' a).
  { intros a [A B]. split; [unfold size in S; lia|]. now rewrite L. }
  constructor; auto.
  - intros k Hk. destruct (H4 k Hk) as [A B]. unfold osize in *. rewrite O, Ob. split; [exact A|]. intros a Ha. apply Bt, B, Ha.
  - intros k Hk. rewrite Ob. auto.
Qed.

Lemma untouched_inv b h h' r o : untouched h h' r o -> Inv b h r o -> Inv b h' r o.
Proof.
  intros [U1 U2 U3 U4] [H1 H2 H3 H4 H5 H6].
  assert (Bt : forall a, In a (footprint h r o) -> batched b h a -> batched b h' a).
  { intros a Hin [A B]. split; [lia|]. now rewrite U3. }
  assert (F1 : forall a, In a (recorded r) -> In a (footprint h r o)) by (intros a Ha; apply in_or_app; now left).
  assert (F2 : forall k a, In k (objects r o) -> In a (fields (obj h k)) -> In a (footprint h r o)).
  { intros k a Hk Ha. apply in_or_app. right. apply in_flat_map. exists k. now split. }
  constructor; auto.
  - intros k Hk. destruct (H4 k Hk) as [A B]. rewrite U4 by exact Hk. split; [unfold osize in *; lia|].
    intros a Ha. apply Bt; [eapply F2; eassumption|]. apply B, Ha.
  - intros k Hk. rewrite U4 by exact Hk. auto.
Qed.

Theorem reachable_inv b h r o : reachable b h r o -> Inv b h r o.
Proof.
  induction 1 as [h time x w ll inds mean var h1 o rs rm h2 r L1 L2 L3 L4 L5 L6 Ef Ei
                 |h r o e h' r' o' HR IH Hok E|h r o other mask h' HR IH E|h r o h' HR IH U].
  - destruct (fresh_state_spec b _ _ _ _ _ _ _ _ _ _ L1 L2 L3 L4 L5 L6 Ef) as (G & Eo & Os & _ & B & _ & N & _).
    eapply init_inv; try eassumption. lia.
  - destruct e as [c|idx hist]; cbn [do_op rop_ok] in *.
    + destruct (step_spec b h r o c IH Hok) as (h2 & r2 & o2 & E2 & I2 & _). rewrite E in E2. injection E2 as -> -> ->. exact I2.
    + destruct (resample h r idx hist) as [h2|] eqn:E2; [|discriminate]. cbn [bind] in E. injection E as <- <- <-.
      eapply resample_inv; eassumption.
  - eapply same_shape_inv; [eapply exchange_shape; eassumption|exact IH].
  - eapply untouched_inv; eassumption.
Qed.
