(** Heap lemmas, the sharing invariant of results and its preservation. *)
From Coq Require Import Reals List Bool Arith ZArith String Lia.
From Verif.Model Require Import Base Xf Container Result.
From Verif.Spec Require ContainerSpec.
From Verif.Spec Require Import ResultSpec.
Import ListNotations.
Local Open Scope list_scope.
Local Open Scope nat_scope.

(** * Lists and the heap *)

Lemma length_upd {A} (l : list A) i v : List.length (lupd l i v) = List.length l.
Proof. revert i; induction l; intros [|i]; cbn; auto. Qed.
Lemma nth_upd {A} (l : list A) i j v d : i < List.length l -> nth j (lupd l i v) d = if j =? i then v else nth j l d.
Proof.
  revert i j; induction l as [|x l IH]; intros i j H; cbn in H; [lia|].
  destruct i, j; cbn; auto. apply IH. lia.
Qed.
Lemma nth_upd_out {A} (l : list A) i j v d : List.length l <= i -> nth j (lupd l i v) d = nth j l d.
Proof.
  revert i j; induction l as [|x l IH]; intros [|i] [|j] H; cbn in *; auto; try lia. apply IH. lia.
Qed.

Lemma get_set h a t c : a < List.length (h_tens h) -> get (set h a t) c = if c =? a then t else get h c.
Proof. intros H. unfold get, set. cbn. now apply nth_upd. Qed.
Lemma size_set h a t : List.length (h_tens (set h a t)) = List.length (h_tens h).
Proof. apply length_upd. Qed.
Lemma obj_set h a t k : obj (set h a t) k = obj h k.
Proof. reflexivity. Qed.

Definition size (h : heap) : nat := List.length (h_tens h).
Definition osize (h : heap) : nat := List.length (h_objs h).

(** * Selecting *)

Definition sel (idx : list nat) (t : tensor) : tensor := map (fun i => nth i t (Num NaN)) idx.
Lemma length_sel idx t : List.length (sel idx t) = List.length idx.
Proof. apply map_length. Qed.
Lemma gather_ok b idx t : valid_indices b idx -> List.length t = b -> gather t idx = Ok (sel idx t).
Proof.
  intros [_ Hi] Ht. unfold gather.
  assert (E : forallb (fun i => i <? List.length t) idx = true).
  { apply forallb_forall. intros i Hin. apply Nat.ltb_lt. rewrite Forall_forall in Hi. rewrite Ht. auto. }
  now rewrite E.
Qed.
Lemma sel_selects b idx t : valid_indices b idx -> List.length t = b -> selects idx t (sel idx t).
Proof.
  intros [Hl Hi] Ht. split; [apply length_sel|]. intros j Hj. unfold sel.
  rewrite (nth_error_nth' _ (Num NaN)) by now rewrite map_length.
  rewrite (nth_indep _ (Num NaN) (nth 0 t (Num NaN))) by now rewrite map_length.
  rewrite (map_nth (fun i => nth i t (Num NaN)) idx 0 j).
  rewrite (nth_error_nth' t (Num NaN)); [reflexivity|].
  rewrite Ht. rewrite Forall_forall in Hi. apply Hi. now apply nth_In.
Qed.
Lemma selects_unique idx t t1 t2 : selects idx t t1 -> selects idx t t2 -> t1 = t2.
Proof.
  intros [L1 H1] [L2 H2].
  assert (forall j, nth_error t1 j = nth_error t2 j) as H.
  { intros j. destruct (lt_dec j (List.length idx)) as [Hj|Hj].
    - now rewrite H1, H2.
    - assert (nth_error t1 j = None) as -> by (apply nth_error_None; lia).
      symmetry. apply nth_error_None. lia. }
  clear -H. revert t2 H. induction t1 as [|x t1 IH]; intros [|y t2] H; auto.
  - specialize (H 0). discriminate.
  - specialize (H 0). discriminate.
  - f_equal.
    + specialize (H 0). now injection H.
    + apply IH. intros j. exact (H (S j)).
Qed.

Lemma index_copy_ok b idx h a : valid_indices b idx -> batched b h a ->
  index_copy idx h a = Ok (set h a (sel idx (get h a))).
Proof.
  intros Hi [Ha Hl]. unfold index_copy. rewrite (gather_ok b) by assumption. cbn [bind]. unfold copy_.
  rewrite length_sel. destruct Hi as [Hi _]. rewrite Hi, Hl, Nat.eqb_refl. reflexivity.
Qed.

Lemma index_copy_all b idx L : valid_indices b idx -> forall h, NoDup L -> (forall a, In a L -> batched b h a) ->
  exists h', foldM (index_copy idx) L h = Ok h' /\ size h' = size h /\ h_objs h' = h_objs h /\
    forall a, get h' a = if in_dec Nat.eq_dec a L then sel idx (get h a) else get h a.
Proof.
  intros Hi. induction L as [|x L IH]; intros h Hnd Hb.
  - exists h. repeat split; auto.
  - inversion Hnd as [|? ? Hx HL]; subst. cbn [foldM].
    assert (Bx : batched b h x) by (apply Hb; now left).
    rewrite (index_copy_ok b) by assumption. cbn [bind].
    destruct Bx as [Bx1 Bx2].
    destruct (IH (set h x (sel idx (get h x)))) as (h' & E & S & O & G); auto.
    { intros a Ha. destruct (Hb a (or_intror Ha)) as [A1 A2]. split; [unfold set; cbn; rewrite length_upd; exact A1|].
      rewrite get_set by exact Bx1. destruct (Nat.eqb_spec a x) as [->|]; [now apply Hx in Ha|exact A2]. }
    exists h'. split; [exact E|]. split; [rewrite S; unfold size; apply size_set|]. split; [rewrite O; reflexivity|].
    intros a. rewrite G. rewrite get_set by exact Bx1.
    destruct (in_dec Nat.eq_dec a L) as [Ha|Ha]; destruct (in_dec Nat.eq_dec a (x :: L)) as [Ha'|Ha'];
      destruct (Nat.eqb_spec a x) as [->|Hne]; try contradiction; try reflexivity;
      exfalso; cbn [In] in Ha'; intuition congruence.
Qed.

(** * States *)

Definition obj_batched (b : nat) (h : heap) (s : sobj) : Prop := forall a, In a (fields s) -> batched b h a.

Lemma get_alloc h t a : a < size h -> get (fst (alloc h t)) a = get h a.
Proof. intros H. unfold get, alloc. cbn. now rewrite app_nth1. Qed.
Lemma get_app_new l o t : get (Heap (l ++ [t]) o) (List.length l) = t.
Proof. unfold get. cbn. rewrite app_nth2, Nat.sub_diag by lia. reflexivity. Qed.

(** Tensors are only added. *)
Definition grows (h h' : heap) : Prop := exists l, h_tens h' = h_tens h ++ l.
Lemma grows_get h h' a : grows h h' -> a < size h -> get h' a = get h a.
Proof. intros [l E] H. unfold get. rewrite E. now rewrite app_nth1. Qed.
Lemma grows_size h h' : grows h h' -> size h <= size h'.
Proof. intros [l E]. unfold size. rewrite E, app_length. lia. Qed.

Lemma state_resample_ok b idx h o : valid_indices b idx -> o < osize h -> obj_batched b h (obj h o) ->
  exists h', state_resample idx h o = Ok h' /\ grows h h' /\ osize h' = osize h /\
    (forall k, k <> o -> obj h' k = obj h k) /\
    s_time (obj h' o) = s_time (obj h o) /\ s_ll (obj h' o) = s_ll (obj h o) /\
    (forall a, In a [s_x (obj h' o); s_w (obj h' o); s_inds (obj h' o); s_mean (obj h' o); s_var (obj h' o)] ->
       size h <= a < size h') /\
    get h' (s_x (obj h' o)) = sel idx (get h (s_x (obj h o))) /\
    get h' (s_w (obj h' o)) = sel idx (get h (s_w (obj h o))) /\
    get h' (s_inds (obj h' o)) = sel idx (get h (s_inds (obj h o))) /\
    get h' (s_mean (obj h' o)) = sel idx (get h (s_mean (obj h o))) /\
    get h' (s_var (obj h' o)) = sel idx (get h (s_var (obj h o))).
Proof.
  intros Hi Ho Hb.
  assert (B : forall a, In a (fields (obj h o)) -> a < List.length (h_tens h) /\ List.length (nth a (h_tens h) []) = b)
    by (intros a Ha; exact (Hb a Ha)).
  unfold fields in B.
  destruct (B (s_x (obj h o)) ltac:(cbn; auto)) as [X1 X2].
  destruct (B (s_w (obj h o)) ltac:(cbn; auto)) as [W1 W2].
  destruct (B (s_ll (obj h o)) ltac:(cbn; auto)) as [L1 L2].
  destruct (B (s_inds (obj h o)) ltac:(cbn; auto)) as [I1 I2].
  destruct (B (s_mean (obj h o)) ltac:(cbn; auto 6)) as [M1 M2].
  destruct (B (s_var (obj h o)) ltac:(cbn; auto 7)) as [V1 V2].
  unfold state_resample. set (s := obj h o) in *. destruct h as [T O]. cbn [h_tens h_objs] in *.
  unfold get, alloc. cbn [h_tens h_objs].
  rewrite (gather_ok b) by assumption. cbn [bind].
  rewrite !app_nth1 by assumption.
  rewrite (gather_ok b) by assumption. cbn [bind h_tens h_objs].
  rewrite !app_nth1 by (rewrite ?app_length; lia).
  rewrite (gather_ok b) by assumption. cbn [bind].
  rewrite (gather_ok b) by assumption. cbn [bind h_tens h_objs].
  rewrite !app_nth1 by (rewrite ?app_length; lia).
  rewrite (gather_ok b) by assumption. cbn [bind h_tens h_objs].
  rewrite !app_nth1 by (rewrite ?app_length; lia).
  rewrite (gather_ok b) by assumption. cbn [bind h_tens h_objs].
  unfold osize in Ho. cbn [h_objs] in Ho.
  eexists. split; [reflexivity|].
  unfold grows, osize, size, obj, set_obj. cbn [h_tens h_objs].
  split; [rewrite <- !app_assoc; eexists; reflexivity|].
  split; [apply length_upd|].
  split; [intros k Hk; rewrite nth_upd by exact Ho; destruct (Nat.eqb_spec k o); [contradiction|reflexivity]|].
  rewrite nth_upd by exact Ho. rewrite Nat.eqb_refl. cbn [s_time s_x s_w s_ll s_inds s_mean s_var].
  split; [reflexivity|]. split; [reflexivity|]. split.
  { intros a Ha. cbn [In] in Ha. rewrite !app_length in *. cbn [List.length] in *. intuition lia. }
  unfold s.
  repeat match goal with |- _ /\ _ => split end;
    (repeat (first [ rewrite (app_nth2 _ [_]) by (rewrite ?app_length; cbn; lia); rewrite Nat.sub_diag; reflexivity
                   | rewrite (app_nth1 _ [_]) by (rewrite ?app_length; cbn; lia) ])).
Qed.

Lemma grows_refl h : grows h h.
Proof. exists []. now rewrite app_nil_r. Qed.
Lemma grows_trans h1 h2 h3 : grows h1 h2 -> grows h2 h3 -> grows h1 h3.
Proof. intros [l E] [l' E']. exists (l ++ l'). rewrite E', E. now rewrite app_assoc. Qed.
Lemma batched_grows b h h' a : grows h h' -> batched b h a -> batched b h' a.
Proof.
  intros G [A B]. split; [pose proof (grows_size _ _ G); unfold size in *; lia|].
  now rewrite (grows_get _ _ _ G).
Qed.

(** What resampling leaves of a state: the same time and log-likelihood tensor, everything else selected into new
    tensors. *)
Record resampled (idx : list nat) (h h' : heap) (k : addr) : Prop := {
  rs_time : s_time (obj h' k) = s_time (obj h k);
  rs_ll : s_ll (obj h' k) = s_ll (obj h k);
  rs_new : forall a, In a [s_x (obj h' k); s_w (obj h' k); s_inds (obj h' k); s_mean (obj h' k); s_var (obj h' k)] ->
             size h <= a < size h';
  rs_nodup : NoDup [s_x (obj h' k); s_w (obj h' k); s_inds (obj h' k); s_mean (obj h' k); s_var (obj h' k)];
  rs_x : get h' (s_x (obj h' k)) = sel idx (get h (s_x (obj h k)));
  rs_w : get h' (s_w (obj h' k)) = sel idx (get h (s_w (obj h k)));
  rs_inds : get h' (s_inds (obj h' k)) = sel idx (get h (s_inds (obj h k)));
  rs_mean : get h' (s_mean (obj h' k)) = sel idx (get h (s_mean (obj h k)));
  rs_var : get h' (s_var (obj h' k)) = sel idx (get h (s_var (obj h k)))
}.

Lemma state_resample_spec b idx h o : valid_indices b idx -> o < osize h -> obj_batched b h (obj h o) ->
  exists h', state_resample idx h o = Ok h' /\ grows h h' /\ osize h' = osize h /\
    (forall k, k <> o -> obj h' k = obj h k) /\ resampled idx h h' o.
Proof.
  intros Hi Ho Hb. destruct (state_resample_ok b idx h o Hi Ho Hb) as (h' & E & G & S & K & A1 & A2 & A3 & A4 & A5 & A6 & A7 & A8).
  exists h'. do 4 (split; [assumption|]). constructor; try assumption.
  (* the new addresses are consecutive *)
  clear -E Ho. unfold state_resample, alloc in E. cbn [h_tens h_objs] in E.
  repeat match type of E with bind ?g _ = _ => destruct g as [?|]; [cbn [bind h_tens h_objs] in E|discriminate E] end.
  injection E as <-. unfold obj, set_obj, osize in *. cbn [h_objs]. rewrite nth_upd by exact Ho.
  rewrite Nat.eqb_refl. cbn [s_x s_w s_inds s_mean s_var]. rewrite !app_length. cbn [List.length].
  repeat constructor; cbn [In]; intuition lia.
Qed.

Lemma resample_all b idx ks : valid_indices b idx -> forall h, NoDup ks ->
  (forall k, In k ks -> k < osize h /\ obj_batched b h (obj h k)) ->
  exists h', foldM (state_resample idx) ks h = Ok h' /\ grows h h' /\ osize h' = osize h /\
    (forall k, ~ In k ks -> obj h' k = obj h k) /\
    (forall k, In k ks -> resampled idx h h' k).
Proof.
  intros Hi. induction ks as [|k ks IH]; intros h Hnd Hb.
  - exists h. split; [reflexivity|]. split; [apply grows_refl|]. split; [reflexivity|]. split; [reflexivity|]. intros k [].
  - inversion Hnd as [|? ? Hk Hks]; subst. cbn [foldM].
    destruct (Hb k (or_introl eq_refl)) as [Hk1 Hk2].
    destruct (state_resample_spec b idx h k Hi Hk1 Hk2) as (h1 & E1 & G1 & S1 & K1 & R1).
    rewrite E1. cbn [bind].
    destruct (IH h1) as (h2 & E2 & G2 & S2 & K2 & R2); auto.
    { intros j Hj. assert (j <> k) by congruence. rewrite K1 by assumption. rewrite S1.
      destruct (Hb j (or_intror Hj)) as [A B]. split; [exact A|]. intros a Ha. apply (batched_grows _ _ _ _ G1), B, Ha. }
    exists h2. split; [exact E2|]. split; [eapply grows_trans; eassumption|]. split; [congruence|]. split.
    + intros j Hj. cbn [In] in Hj. rewrite K2, K1; [reflexivity| |]; intuition.
    + intros j [<-|Hj].
      * pose proof (K2 k Hk) as E. destruct R1 as [T1 L1 N1 D1 X W I M V].
        assert (forall a, size h <= a < size h1 -> get h2 a = get h1 a).
        { intros a Ha. apply (grows_get _ _ _ G2). lia. }
        constructor; rewrite ?E; try assumption;
          try (rewrite (grows_get _ _ _ G2); [assumption|]; apply N1; cbn; tauto).
        intros a Ha. pose proof (grows_size _ _ G2). specialize (N1 a Ha). lia.
      * assert (Hne : j <> k) by congruence. specialize (R2 j Hj). destruct R2 as [T1 L1 N1 D1 X W I M V].
        rewrite K1 in * by assumption. destruct (Hb j (or_intror Hj)) as [_ B].
        assert (Hlt : forall a, In a (fields (obj h j)) -> a < size h) by (intros a Ha; destruct (B a Ha); assumption).
        constructor; try assumption;
          try (first [rewrite X | rewrite W | rewrite I | rewrite M | rewrite V];
               rewrite (grows_get _ _ _ G1); [reflexivity|apply Hlt; cbn; tauto]).
        intros a Ha. pose proof (grows_size _ _ G1). specialize (N1 a Ha). lia.
Qed.

(** * The invariant *)

Definition means (r : result) : list addr :=
  match od_get "filter_means" (c_deques (r_tt r)) with Some d => dq_items d | None => [] end.
Definition vars (r : result) : list addr :=
  match od_get "filter_variances" (c_deques (r_tt r)) with Some d => dq_items d | None => [] end.
Definition two_deques (r : result) : Prop :=
  exists dm dv, r_tt r = Cont [] [("filter_means"%string, dm); ("filter_variances"%string, dv)].

Lemma moments_split r : two_deques r -> moments r = means r ++ vars r.
Proof.
  intros (dm & dv & E). unfold moments, means, vars, cvalues. rewrite E. cbn. now rewrite app_nil_r.
Qed.

(** How the fields of a state may coincide with what the result records. *)
Record apart (r : result) (s : sobj) : Prop := {
  ap_x : ~ In (s_x s) (recorded r);
  ap_w : ~ In (s_w s) (recorded r);
  ap_inds : ~ In (s_inds s) (recorded r);
  ap_ll : ~ In (s_ll s) (moments r);
  ap_mean : s_mean s <> r_ll r /\ ~ In (s_mean s) (vars r);
  ap_var : s_var s <> r_ll r /\ ~ In (s_var s) (means r);
  ap_fields : NoDup (fields s)
}.

Record Inv (b : nat) (h : heap) (r : result) (o : addr) : Prop := {
  iv_two : two_deques r;
  iv_rec : forall a, In a (recorded r) -> batched b h a;
  iv_nodup : NoDup (recorded r);
  iv_objs : forall k, In k (objects r o) -> k < osize h /\ obj_batched b h (obj h k);
  iv_apart : forall k, In k (objects r o) -> apart r (obj h k);
  iv_states : NoDup (dq_items (r_states r))
}.

(** ** Resampling *)

Lemma resample_spec b h r o idx hist : Inv b h r o -> valid_indices b idx ->
  let touched a := a = r_ll r \/ (hist = true /\ In a (moments r)) in
  exists h', resample h r idx hist = Ok h' /\ size h <= size h' /\ osize h' = osize h /\
    (forall a, a < size h -> touched a -> get h' a = sel idx (get h a)) /\
    (forall a, a < size h -> ~ touched a -> get h' a = get h a) /\
    (forall k, ~ In k (dq_items (r_states r)) -> obj h' k = obj h k) /\
    (forall k, In k (dq_items (r_states r)) -> exists hm,
       size hm = size h /\ h_objs hm = h_objs h /\ resampled idx hm h' k /\ grows hm h' /\
       (forall a, touched a -> a < size h -> get hm a = sel idx (get h a)) /\
       (forall a, ~ touched a -> get hm a = get h a)).
Proof.
  intros HI Hi touched. unfold resample.
  pose (L := r_ll r :: if hist then moments r else []).
  assert (HL : forall a, In a L <-> touched a).
  { intros a. unfold L, touched. destruct hist; cbn [In]; intuition congruence. }
  assert (HLr : forall a, In a L -> In a (recorded r)).
  { intros a. unfold L, recorded. destruct hist; cbn [In]; tauto. }
  destruct (index_copy_all b idx L Hi h) as (hm & E & S & O & G).
  { pose proof (iv_nodup _ _ _ _ HI) as N. unfold L. destruct hist; [exact N|]. constructor; [intros []|constructor]. }
  { intros a Ha. apply (iv_rec _ _ _ _ HI). now apply HLr. }
  assert (E' : bind (index_copy idx h (r_ll r)) (fun h0 => bind (if hist then foldM (index_copy idx) (List.concat (cvalues (r_tt r))) h0 else Ok h0)
                (fun h1 => foldM (state_resample idx) (dq_items (r_states r)) h1))
             = foldM (state_resample idx) (dq_items (r_states r)) hm).
  { unfold L in E. cbn [foldM] in E. destruct (index_copy idx h (r_ll r)) as [h0|]; [|discriminate]. cbn [bind] in *.
    destruct hist; [fold (moments r); rewrite E; reflexivity|]. cbn [foldM] in E. injection E as <-. reflexivity. }
  rewrite E'.
  destruct (resample_all b idx (dq_items (r_states r)) Hi hm) as (h' & E2 & G2 & S2 & K2 & R2).
  { apply (iv_states _ _ _ _ HI). }
  { intros k Hk. destruct (iv_objs _ _ _ _ HI k (or_intror Hk)) as [A B]. unfold osize, obj in *. rewrite O.
    split; [exact A|]. intros a Ha. destruct (B a Ha) as [B1 B2]. split; [unfold size in S; lia|].
    rewrite G. destruct (in_dec Nat.eq_dec a L); [rewrite length_sel; apply Hi|exact B2]. }
  exists h'. split; [exact E2|]. split; [pose proof (grows_size _ _ G2); lia|].
  split; [unfold osize in *; rewrite S2, O; reflexivity|].
  assert (Gt : forall a, touched a -> get hm a = sel idx (get h a)).
  { intros a Ha. rewrite G. destruct (in_dec Nat.eq_dec a L) as [|n]; [reflexivity|]. exfalso. apply n, HL, Ha. }
  assert (Gu : forall a, ~ touched a -> get hm a = get h a).
  { intros a Ha. rewrite G. destruct (in_dec Nat.eq_dec a L) as [n|]; [|reflexivity]. exfalso. apply Ha, HL, n. }
  split; [intros a Ha Ht; rewrite (grows_get _ _ _ G2) by lia; auto|].
  split; [intros a Ha Ht; rewrite (grows_get _ _ _ G2) by lia; auto|].
  split; [intros k Hk; rewrite K2 by exact Hk; unfold obj; now rewrite O|].
  intros k Hk. exists hm. split; [exact S|]. split; [exact O|]. split; [now apply R2|]. split; [exact G2|].
  split; [intros a Ha _; now apply Gt|exact Gu].
Qed.

Lemma recorded_lt b h r o a : Inv b h r o -> In a (recorded r) -> a < size h.
Proof. intros HI Ha. destruct (iv_rec _ _ _ _ HI a Ha). assumption. Qed.
Lemma in_means r a : two_deques r -> In a (means r) -> In a (recorded r).
Proof. intros H Ha. right. rewrite (moments_split r H). apply in_or_app. now left. Qed.
Lemma in_vars r a : two_deques r -> In a (vars r) -> In a (recorded r).
Proof. intros H Ha. right. rewrite (moments_split r H). apply in_or_app. now right. Qed.

Lemma resample_inv b h r o idx hist h' : Inv b h r o -> valid_indices b idx ->
  resample h r idx hist = Ok h' -> Inv b h' r o.
Proof.
  intros HI Hi E. destruct (resample_spec b h r o idx hist HI Hi) as (h2 & E2 & S & O & T & U & K & R).
  rewrite E in E2. injection E2 as <-.
  assert (Bat : forall a, batched b h a -> batched b h' a).
  { intros a [A B]. unfold size in S. split; [lia|].
    destruct (in_dec Nat.eq_dec a (r_ll r :: if hist then moments r else [])) as [Ha|Ha].
    - rewrite T; [rewrite length_sel; apply Hi|exact A|]. destruct Ha as [<-|Ha]; [now left|]. right. destruct hist; [now split|destruct Ha].
    - rewrite U; [exact B|exact A|]. intros [->|[-> H]]; apply Ha; cbn [In]; auto. }
  constructor.
  - apply (iv_two _ _ _ _ HI).
  - intros a Ha. apply Bat, (iv_rec _ _ _ _ HI a Ha).
  - apply (iv_nodup _ _ _ _ HI).
  - intros k Hk. destruct (iv_objs _ _ _ _ HI k Hk) as [A B]. split; [lia|].
    destruct (in_dec Nat.eq_dec k (dq_items (r_states r))) as [Hin|Hin].
    + destruct (R k Hin) as (hm & S1 & O1 & Rk & Gm & Ta & Ua).
      intros a Ha. unfold fields in Ha. cbn [In] in Ha.
      assert (Hl : forall c t, In c [s_x (obj h' k); s_w (obj h' k); s_inds (obj h' k); s_mean (obj h' k); s_var (obj h' k)] ->
                   get h' c = sel idx t -> batched b h' c).
      { intros c t Hc Ec. destruct (rs_new _ _ _ _ Rk c Hc) as [_ Hlt]. split; [exact Hlt|].
        rewrite Ec, length_sel. apply Hi. }
      destruct Ha as [<-|[<-|[<-|[<-|[<-|[<-|[]]]]]]].
      * eapply Hl; [cbn; tauto|apply (rs_x _ _ _ _ Rk)].
      * eapply Hl; [cbn; tauto|apply (rs_w _ _ _ _ Rk)].
      * rewrite (rs_ll _ _ _ _ Rk). unfold obj. rewrite O1. apply Bat, B. cbn. tauto.
      * eapply Hl; [cbn; tauto|apply (rs_inds _ _ _ _ Rk)].
      * eapply Hl; [cbn; tauto|apply (rs_mean _ _ _ _ Rk)].
      * eapply Hl; [cbn; tauto|apply (rs_var _ _ _ _ Rk)].
    + rewrite K by exact Hin. intros a Ha. apply Bat, B, Ha.
  - intros k Hk. destruct (in_dec Nat.eq_dec k (dq_items (r_states r))) as [Hin|Hin].
    2:{ rewrite K by exact Hin. apply (iv_apart _ _ _ _ HI k Hk). }
    destruct (R k Hin) as (hm & S1 & O1 & Rk & Gm & _). destruct (iv_apart _ _ _ _ HI k Hk) as [P1 P2 P3 P4 P5 P6 P7].
    assert (Hnew : forall c, In c [s_x (obj h' k); s_w (obj h' k); s_inds (obj h' k); s_mean (obj h' k); s_var (obj h' k)] ->
                    ~ In c (recorded r) /\ c <> s_ll (obj h k)).
    { intros c Hc. destruct (rs_new _ _ _ _ Rk c Hc) as [Hge _]. split.
      - intros Hr. pose proof (recorded_lt _ _ _ _ _ HI Hr). unfold size in *. lia.
      - intros ->. destruct (iv_objs _ _ _ _ HI k Hk) as [_ B]. destruct (B (s_ll (obj h k))); [cbn; tauto|].
        unfold size in *. lia. }
    pose proof (iv_two _ _ _ _ HI) as H2.
    assert (Ell : s_ll (obj h' k) = s_ll (obj h k)) by (rewrite (rs_ll _ _ _ _ Rk); unfold obj; now rewrite O1).
    constructor.
    + apply Hnew. cbn; tauto.
    + apply Hnew. cbn; tauto.
    + apply Hnew. cbn; tauto.
    + rewrite Ell. exact P4.
    + destruct (Hnew (s_mean (obj h' k)) ltac:(cbn; tauto)) as [N _]. split.
      * intros Em. apply N. now left.
      * intros Hv. apply N. now apply in_vars.
    + destruct (Hnew (s_var (obj h' k)) ltac:(cbn; tauto)) as [N _]. split.
      * intros Em. apply N. now left.
      * intros Hv. apply N. now apply in_means.
    + rewrite <- Ell in Hnew. pose proof (rs_nodup _ _ _ _ Rk) as N. unfold fields. clear -N Hnew.
      assert (D : forall c, In c [s_x (obj h' k); s_w (obj h' k); s_inds (obj h' k); s_mean (obj h' k); s_var (obj h' k)] ->
                  c <> s_ll (obj h' k)) by (intros c Hc; apply Hnew, Hc).
      set (s := obj h' k) in *. clearbody s. clear Hnew.
      pose proof (D (s_x s) ltac:(cbn; tauto)). pose proof (D (s_w s) ltac:(cbn; tauto)).
      pose proof (D (s_inds s) ltac:(cbn; tauto)). pose proof (D (s_mean s) ltac:(cbn; tauto)).
      pose proof (D (s_var s) ltac:(cbn; tauto)). clear D.
      repeat match goal with H : NoDup (_ :: _) |- _ => inversion H; clear H; subst end. cbn [In] in *.
      repeat constructor; cbn [In]; intuition congruence.
  - apply (iv_states _ _ _ _ HI).
Qed.

(** ** New states *)

Lemma new_state_spec b h prev c h' o : content_ok b c -> obj_batched b h (obj h prev) ->
  s_w (obj h prev) <> s_inds (obj h prev) ->
  new_state h prev c = (h', o) ->
  grows h h' /\ o = osize h /\ (exists s, h_objs h' = h_objs h ++ [s]) /\
  let s := obj h' o in
  s_time s = n_time c /\
  (forall a, In a [s_x s; s_ll s; s_mean s; s_var s] -> size h <= a) /\
  (forall a, In a (fields s) -> a < size h') /\ NoDup (fields s) /\
  (match n_w c with New t => size h <= s_w s /\ get h' (s_w s) = t | Shared => s_w s = s_w (obj h prev) end) /\
  (match n_inds c with New t => size h <= s_inds s /\ get h' (s_inds s) = t | Shared => s_inds s = s_inds (obj h prev) end) /\
  get h' (s_x s) = n_x c /\ get h' (s_ll s) = n_ll c /\ get h' (s_mean s) = n_mean c /\ get h' (s_var s) = n_var c.
Proof.
  intros Hc Hb Hwi E.
  assert (W : s_w (obj h prev) < size h) by (apply Hb; cbn; tauto).
  assert (I : s_inds (obj h prev) < size h) by (apply Hb; cbn; tauto).
  unfold new_state, alloc, alloc_obj in E. set (p := obj h prev) in *. clearbody p.
  destruct c as [tm x w ll i m v]. cbn [n_time n_x n_w n_ll n_inds n_mean n_var] in *.
  destruct h as [T O]. unfold size, osize in *. cbn [h_tens h_objs] in *.
  destruct w as [tw|], i as [ti|]; cbn [place alloc h_tens h_objs] in E; injection E as <- <-; unfold grows, obj; cbn [h_tens h_objs];
    rewrite (app_nth2 O) by lia; rewrite Nat.sub_diag; cbn [nth s_time s_x s_w s_ll s_inds s_mean s_var fields];
    (split; [rewrite <- !app_assoc; eexists; reflexivity|]); (split; [reflexivity|]); (split; [eexists; reflexivity|]); (split; [reflexivity|]);
    unfold get; cbn [h_tens h_objs]; rewrite ?app_length; cbn [List.length];
    (split; [cbn [In]; intros a Ha; intuition lia|]); (split; [cbn [In fields s_x s_w s_ll s_inds s_mean s_var]; intros a Ha; intuition lia|]);
    (split; [unfold fields; cbn [s_x s_w s_ll s_inds s_mean s_var]; repeat constructor; cbn [In]; intuition lia|]);
    repeat match goal with |- _ /\ _ => split end; try lia; try reflexivity;
    (repeat (first [ rewrite (app_nth2 _ [_]) by (rewrite ?app_length; cbn; lia); 
                     match goal with |- nth ?k [_] _ = _ => replace k with 0 by (rewrite ?app_length; cbn; lia) end; reflexivity
                   | rewrite (app_nth1 _ [_]) by (rewrite ?app_length; cbn; lia) ])).
Qed.

(** ** Appending *)

Definition added (t u : tensor) : tensor := map (fun p => cell_add (fst p) (snd p)) (combine t u).
Lemma length_added t u : List.length u = List.length t -> List.length (added t u) = List.length t.
Proof. intros H. unfold added. rewrite map_length, combine_length. lia. Qed.

Lemma dq_append_items {A} (d : dq A) x : dq_items (dq_append d x) = dq_items d ++ [x] \/ dq_items (dq_append d x) = tl (dq_items d ++ [x]).
Proof. unfold dq_append. destruct (dq_max d) as [m|]; [|now left]. destruct (_ <=? m); [now left|now right]. Qed.
Lemma in_tl {A} (l : list A) a : In a (tl l) -> In a l.
Proof. destruct l; cbn; auto. Qed.
Lemma nodup_tl {A} (l : list A) : NoDup l -> NoDup (tl l).
Proof. intros H. destruct H; [constructor|assumption]. Qed.
Lemma in_dq_append {A} (d : dq A) x a : In a (dq_items (dq_append d x)) -> In a (dq_items d) \/ a = x.
Proof.
  intros H. assert (In a (dq_items d ++ [x])) as H'.
  { destruct (dq_append_items d x) as [E|E]; rewrite E in H; [exact H|now apply in_tl]. }
  apply in_app_or in H'. cbn in H'. intuition.
Qed.
Lemma nodup_app_intro {A} (l : list A) x : NoDup l -> ~ In x l -> NoDup (l ++ [x]).
Proof.
  intros Hn Hx. induction Hn as [|y l Hy Hn IH]; cbn.
  - constructor; [intros []|constructor].
  - constructor.
    + intros H. apply in_app_or in H. cbn in H. destruct H as [H|[H|[]]]; [contradiction|]. subst. apply Hx. now left.
    + apply IH. intros H. apply Hx. now right.
Qed.
Lemma nodup_dq_append {A} (d : dq A) x : NoDup (dq_items d) -> ~ In x (dq_items d) -> NoDup (dq_items (dq_append d x)).
Proof.
  intros Hn Hx. pose proof (nodup_app_intro _ _ Hn Hx) as N.
  destruct (dq_append_items d x) as [E|E]; rewrite E; [exact N|now apply nodup_tl].
Qed.
Lemma nodup_split {A} (l l' : list A) : NoDup (l ++ l') <-> NoDup l /\ NoDup l' /\ forall a, In a l -> ~ In a l'.
Proof.
  induction l as [|x l IH]; cbn.
  - split; [intros H; repeat split; [constructor|assumption|intros a []]|intros (_ & H & _); exact H].
  - split.
    + intros H. inversion H as [|? ? Hx Hn]; subst. apply IH in Hn. destruct Hn as (N1 & N2 & D).
      split; [constructor; [intros Hi; apply Hx; apply in_or_app; now left|exact N1]|].
      split; [exact N2|]. intros a [<-|Ha]; [intros Hi; apply Hx; apply in_or_app; now right|now apply D].
    + intros (N1 & N2 & D). inversion N1 as [|? ? Hx Hn]; subst. constructor.
      * intros Hi. apply in_app_or in Hi. destruct Hi as [Hi|Hi]; [contradiction|]. apply (D x); [now left|exact Hi].
      * apply IH. split; [exact Hn|]. split; [exact N2|]. intros a Ha. apply D. now right.
Qed.

(** The deques of a result. *)
Definition with_deques (r : result) (dm dv : dq addr) : Prop :=
  r_tt r = Cont [] [("filter_means"%string, dm); ("filter_variances"%string, dv)].
Lemma with_means r dm dv : with_deques r dm dv -> means r = dq_items dm.
Proof. intros E. unfold means. rewrite E. reflexivity. Qed.
Lemma with_vars r dm dv : with_deques r dm dv -> vars r = dq_items dv.
Proof. intros E. unfold vars. rewrite E. reflexivity. Qed.
Lemma with_recorded r dm dv : with_deques r dm dv -> recorded r = r_ll r :: dq_items dm ++ dq_items dv.
Proof.
  intros E. unfold recorded. rewrite moments_split by (exists dm, dv; exact E).
  now rewrite (with_means _ _ _ E), (with_vars _ _ _ E).
Qed.

Lemma append_spec b h r o dm dv : with_deques r dm dv -> batched b h (r_ll r) -> batched b h (s_ll (obj h o)) ->
  exists r', append h r o = Ok (set h (r_ll r) (added (get h (r_ll r)) (get h (s_ll (obj h o)))), r') /\
    r_ll r' = r_ll r /\ with_deques r' (dq_append dm (s_mean (obj h o))) (dq_append dv (s_var (obj h o))) /\
    r_states r' = dq_append (r_states r) o.
Proof.
  intros E [A1 A2] [B1 B2]. unfold append. rewrite E. cbn [append_to od_mem od_get c_tuples c_deques].
  cbn [String.eqb Ascii.eqb Bool.eqb bind od_set c_tuples c_deques append_to od_mem od_get].
  unfold add_. rewrite A2, B2, Nat.eqb_refl. cbn [bind].
  eexists. split; [reflexivity|]. split; [reflexivity|]. split; [reflexivity|reflexivity].
Qed.

Lemma set_batched b h a t c : a < size h -> List.length t = b -> batched b h c -> batched b (set h a t) c.
Proof.
  intros Ha Ht [C1 C2]. split; [rewrite size_set; exact C1|]. rewrite get_set by exact Ha.
  destruct (c =? a); [exact Ht|exact C2].
Qed.

Definition newly (c : content) (old_w old_inds : tensor) : sview :=
  SView (n_time c) (n_x c) (match n_w c with New t => t | Shared => old_w end) (n_ll c)
        (match n_inds c with New t => t | Shared => old_inds end) (n_mean c) (n_var c).

(** Appending a state whose tensors the result does not yet record keeps the invariant. *)
Lemma append_inv b h r o k dm dv h' r' :
  with_deques r dm dv -> (forall a, In a (recorded r) -> batched b h a) -> NoDup (recorded r) ->
  (forall j, In j (objects r o) -> j < osize h /\ obj_batched b h (obj h j)) ->
  (forall j, In j (objects r o) -> apart r (obj h j)) -> NoDup (dq_items (r_states r)) ->
  ~ In k (dq_items (r_states r)) -> k < osize h -> obj_batched b h (obj h k) -> apart r (obj h k) ->
  ~ In (s_mean (obj h k)) (recorded r) -> ~ In (s_var (obj h k)) (recorded r) ->
  (forall j, In j (dq_items (r_states r)) -> ~ In (s_mean (obj h k)) (fields (obj h j)) /\ ~ In (s_var (obj h k)) (fields (obj h j))) ->
  append h r k = Ok (h', r') -> Inv b h' r' k.
Proof.
  intros W HR HN HO HA HS Hk Hk1 Hk2 Hk3 Hm Hv Hj E.
  assert (B1 : batched b h (r_ll r)) by (apply HR; now left).
  assert (B2 : batched b h (s_ll (obj h k))) by (apply Hk2; cbn; tauto).
  destruct (append_spec b h r k dm dv W B1 B2) as (r2 & E2 & Q1 & Q2 & Q3).
  rewrite E in E2. injection E2 as -> ->.
  assert (Hrec : forall a, In a (recorded r2) -> In a (recorded r) \/ a = s_mean (obj h k) \/ a = s_var (obj h k)).
  { intros a. rewrite (with_recorded _ _ _ Q2), (with_recorded _ _ _ W), Q1. cbn [In]. rewrite !in_app_iff.
    intros [Ha|[Ha|Ha]]; [tauto| |]; apply in_dq_append in Ha; tauto. }
  assert (Hset : forall c, batched b h c -> batched b (set h (r_ll r) (added (get h (r_ll r)) (get h (s_ll (obj h k))))) c).
  { intros c. apply set_batched; [apply B1|]. rewrite length_added; destruct B1, B2; congruence. }
  assert (Hne : s_mean (obj h k) <> s_var (obj h k)).
  { pose proof (ap_fields _ _ Hk3) as N. unfold fields in N. intros Ec. rewrite Ec in N.
    repeat match goal with H : NoDup (_ :: _) |- _ => inversion H; clear H; subst end. cbn [In] in *. intuition. }
  constructor.
  - eexists. eexists. exact Q2.
  - intros a Ha. apply Hset. destruct (Hrec a Ha) as [H|[->| ->]]; [now apply HR| |]; apply Hk2; cbn; tauto.
  - rewrite (with_recorded _ _ _ W) in HN, Hm, Hv. rewrite (with_recorded _ _ _ Q2), Q1.
    inversion HN as [|? ? N1 N2]; subst. apply nodup_split in N2. destruct N2 as (N2 & N3 & N4).
    cbn [In] in Hm, Hv. rewrite in_app_iff in Hm, Hv, N1.
    constructor.
    + rewrite in_app_iff. intros [Ha|Ha]; apply in_dq_append in Ha; intuition.
    + apply nodup_split. split; [apply nodup_dq_append; intuition|]. split; [apply nodup_dq_append; intuition|].
      intros a Ha Hb. apply in_dq_append in Ha. apply in_dq_append in Hb.
      destruct Ha as [Ha| ->], Hb as [Hb|Hb]; try subst a; intuition. now apply (N4 a).
  - intros j Hj0.
    assert (Hj' : In j (dq_items (r_states r)) \/ j = k).
    { unfold objects in Hj0. rewrite Q3 in Hj0. cbn [In] in Hj0. destruct Hj0 as [<-|Hj0]; [now right|]. now apply in_dq_append in Hj0. }
    destruct Hj' as [Hj'| ->].
    + destruct (HO j (or_intror Hj')) as [A B]. split; [exact A|]. intros a Ha. apply Hset, B, Ha.
    + split; [exact Hk1|]. intros a Ha. apply Hset, Hk2, Ha.
  - intros j Hj0.
    assert (Hj' : In j (dq_items (r_states r)) \/ j = k).
    { unfold objects in Hj0. rewrite Q3 in Hj0. cbn [In] in Hj0. destruct Hj0 as [<-|Hj0]; [now right|]. now apply in_dq_append in Hj0. }
    rewrite obj_set.
    assert (Hm2 : forall a, In a (means r2) -> In a (means r) \/ a = s_mean (obj h k)).
    { intros a. rewrite (with_means _ _ _ Q2), (with_means _ _ _ W). apply in_dq_append. }
    assert (Hv2 : forall a, In a (vars r2) -> In a (vars r) \/ a = s_var (obj h k)).
    { intros a. rewrite (with_vars _ _ _ Q2), (with_vars _ _ _ W). apply in_dq_append. }
    assert (Hmo : forall a, In a (moments r2) -> In a (moments r) \/ a = s_mean (obj h k) \/ a = s_var (obj h k)).
    { intros a. rewrite (moments_split r2), (moments_split r) by (eexists; eexists; eassumption).
      rewrite !in_app_iff. intros [Ha|Ha]; [apply Hm2 in Ha|apply Hv2 in Ha]; tauto. }
    destruct Hj' as [Hj'| ->].
    + destruct (HA j (or_intror Hj')) as [P1 P2 P3 P4 P5 P6 P7]. destruct (Hj j Hj') as [D1 D2].
      unfold fields in D1, D2. cbn [In] in D1, D2.
      constructor; rewrite ?Q1.
      * intros H. apply Hrec in H. intuition.
      * intros H. apply Hrec in H. intuition.
      * intros H. apply Hrec in H. intuition.
      * intros H. apply Hmo in H. intuition.
      * split; [tauto|]. intros H. apply Hv2 in H. intuition.
      * split; [tauto|]. intros H. apply Hm2 in H. intuition.
      * exact P7.
    + destruct Hk3 as [P1 P2 P3 P4 P5 P6 P7].
      pose proof P7 as P7'. unfold fields in P7'.
      repeat match goal with H : NoDup (_ :: _) |- _ => inversion H; clear H; subst end. cbn [In] in *.
      constructor; rewrite ?Q1.
      * intros H. apply Hrec in H. intuition congruence.
      * intros H. apply Hrec in H. intuition congruence.
      * intros H. apply Hrec in H. intuition congruence.
      * intros H. apply Hmo in H. intuition congruence.
      * split; [tauto|]. intros H. apply Hv2 in H. intuition congruence.
      * split; [tauto|]. intros H. apply Hm2 in H. intuition congruence.
      * exact P7.
  - rewrite Q3. now apply nodup_dq_append.
Qed.

Lemma step_spec b h r o c : Inv b h r o -> content_ok b c ->
  exists h' r' o', step h r o c = Ok (h', r', o') /\ Inv b h' r' o' /\
    r_ll r' = r_ll r /\ o' = osize h /\ size h <= size h' /\ osize h' = S (osize h) /\
    get h' (r_ll r) = added (get h (r_ll r)) (n_ll c) /\
    (forall a, a < size h -> a <> r_ll r -> get h' a = get h a) /\
    (forall k, k < osize h -> obj h' k = obj h k) /\
    view h' o' = newly c (get h (s_w (obj h o))) (get h (s_inds (obj h o))) /\
    (forall a, In a (fields (obj h' o')) -> size h <= a \/ a = s_w (obj h o) \/ a = s_inds (obj h o)) /\
    size h <= s_ll (obj h' o') /\ size h <= s_mean (obj h' o') /\ size h <= s_var (obj h' o') /\ size h <= s_x (obj h' o') /\
    (forall dm dv, with_deques r dm dv -> with_deques r' (dq_append dm (s_mean (obj h' o'))) (dq_append dv (s_var (obj h' o')))) /\
    r_states r' = dq_append (r_states r) o'.
Proof.
  intros HI Hc. destruct (iv_objs _ _ _ _ HI o (or_introl eq_refl)) as [Ho1 Ho2].
  pose proof (iv_apart _ _ _ _ HI o (or_introl eq_refl)) as Ao.
  assert (Hwi : s_w (obj h o) <> s_inds (obj h o)).
  { pose proof (ap_fields _ _ Ao) as N. unfold fields in N. intros Ec. rewrite Ec in N.
    repeat match goal with H : NoDup (_ :: _) |- _ => inversion H; clear H; subst end. cbn [In] in *. intuition. }
  destruct (new_state h o c) as [h1 k] eqn:En.
  destruct (new_state_spec b h o c h1 k Hc Ho2 Hwi En) as (G & Ek & (s0 & Eo) & T & N1 & N2 & N3 & Nw & Ni & X & L & M & V).
  set (s := obj h1 k) in *.
  assert (Hold : forall j, j < osize h -> obj h1 j = obj h j).
  { intros j Hj. unfold obj. rewrite Eo. now rewrite app_nth1. }
  assert (Hosz : osize h1 = S (osize h)) by (unfold osize; rewrite Eo, app_length; cbn; lia).
  assert (Wlt : s_w (obj h o) < size h) by (apply Ho2; cbn; tauto).
  assert (Ilt : s_inds (obj h o) < size h) by (apply Ho2; cbn; tauto).
  destruct Hc as (C1 & C2 & C3 & C4 & C5 & C6).
  assert (Bk : obj_batched b h1 s).
  { intros a Ha. split; [now apply N2|]. unfold fields in Ha. cbn [In] in Ha.
    destruct Ha as [<-|[<-|[<-|[<-|[<-|[<-|[]]]]]]]; try congruence.
    - destruct (n_w c); [destruct Nw as [_ Ew]; rewrite Ew; exact C2|]. rewrite Nw. rewrite (grows_get _ _ _ G) by exact Wlt. apply Ho2. cbn; tauto.
    - destruct (n_inds c); [destruct Ni as [_ Ei]; rewrite Ei; exact C4|]. rewrite Ni. rewrite (grows_get _ _ _ G) by exact Ilt. apply Ho2. cbn; tauto. }
  destruct (iv_two _ _ _ _ HI) as (dm & dv & W).
  assert (B1 : batched b h1 (r_ll r)) by (apply (batched_grows _ _ _ _ G), (iv_rec _ _ _ _ HI); now left).
  destruct (append_spec b h1 r k dm dv W B1 (Bk (s_ll s) ltac:(cbn; tauto))) as (r' & Ea & Q1 & Q2 & Q3).
  fold s in Ea, Q2. set (h' := set h1 (r_ll r) (added (get h1 (r_ll r)) (get h1 (s_ll s)))) in *.
  assert (Rlt : forall a, In a (recorded r) -> a < size h) by (intros a Ha; exact (recorded_lt _ _ _ _ _ HI Ha)).
  assert (Hfresh : forall a, size h <= a -> ~ In a (recorded r)) by (intros a Ha Hr; specialize (Rlt a Hr); lia).
  assert (NF : forall a, In a [s_x s; s_ll s; s_mean s; s_var s] -> ~ In a (recorded r)) by (intros a Ha; apply Hfresh, N1, Ha).
  assert (Aw : ~ In (s_w s) (recorded r)).
  { destruct (n_w c); [apply Hfresh, Nw|]. rewrite Nw. apply (ap_w _ _ Ao). }
  assert (Ai : ~ In (s_inds s) (recorded r)).
  { destruct (n_inds c); [apply Hfresh, Ni|]. rewrite Ni. apply (ap_inds _ _ Ao). }
  pose proof (iv_two _ _ _ _ HI) as H2.
  assert (Ak : apart r s).
  { constructor; auto.
    - apply NF. cbn; tauto.
    - intros H. apply (NF (s_ll s)); [cbn; tauto|]. now right.
    - split; [intros H; apply (NF (s_mean s)); [cbn; tauto|now left]|].
      intros H. apply (NF (s_mean s)); [cbn; tauto|]. now apply in_vars.
    - split; [intros H; apply (NF (s_var s)); [cbn; tauto|now left]|].
      intros H. apply (NF (s_var s)); [cbn; tauto|]. now apply in_means. }
  assert (Hrll : r_ll r < size h) by (apply Rlt; now left).
  exists h', r', k. unfold step. rewrite En. rewrite Ea. cbn [bind]. split; [reflexivity|]. split.
  { eapply (append_inv b h1 r o k dm dv h' r' W); try eassumption.
    - intros a Ha. apply (batched_grows _ _ _ _ G), (iv_rec _ _ _ _ HI a Ha).
    - apply (iv_nodup _ _ _ _ HI).
    - intros j Hj. destruct (iv_objs _ _ _ _ HI j Hj) as [A B]. split; [lia|]. rewrite Hold by exact A.
      intros a Ha. apply (batched_grows _ _ _ _ G), B, Ha.
    - intros j Hj. destruct (iv_objs _ _ _ _ HI j Hj) as [A B]. rewrite Hold by exact A. apply (iv_apart _ _ _ _ HI j Hj).
    - apply (iv_states _ _ _ _ HI).
    - intros Hin. destruct (iv_objs _ _ _ _ HI k (or_intror Hin)) as [A _]. lia.
    - lia.
    - apply NF. cbn; tauto.
    - apply NF. cbn; tauto.
    - intros j Hj. destruct (iv_objs _ _ _ _ HI j (or_intror Hj)) as [A B]. fold s. rewrite (Hold j A).
      pose proof (N1 (s_mean s) ltac:(cbn; tauto)). pose proof (N1 (s_var s) ltac:(cbn; tauto)).
      split; intros Hf; destruct (B _ Hf) as [Hlt _]; unfold size in *; lia. }
  assert (Hsz : size h' = size h1) by (unfold size, h'; apply size_set).
  assert (Hget : forall a, get h' a = if a =? r_ll r then added (get h1 (r_ll r)) (n_ll c) else get h1 a).
  { intros a. unfold h'. rewrite get_set by apply B1. now rewrite L. }
  assert (Hobj : forall j, obj h' j = obj h1 j) by reflexivity.
  pose proof (grows_size _ _ G) as Hgs.
  split; [exact Q1|]. split; [exact Ek|]. split; [lia|]. split; [exact Hosz|]. split.
  { rewrite Hget, Nat.eqb_refl. now rewrite (grows_get _ _ _ G) by exact Hrll. }
  split.
  { intros a Ha Hne. rewrite Hget. destruct (Nat.eqb_spec a (r_ll r)); [contradiction|]. now apply grows_get. }
  split; [exact Hold|]. split.
  { unfold view, newly. rewrite Hobj. fold s. 
    assert (Hg : forall a, ~ In a (recorded r) -> get h' a = get h1 a).
    { intros a Ha. rewrite Hget. destruct (Nat.eqb_spec a (r_ll r)) as [->|]; [|reflexivity]. exfalso. apply Ha. now left. }
    rewrite T. rewrite !Hg by (first [exact Aw | exact Ai | apply NF; cbn; tauto]).
    rewrite X, L, M, V. f_equal.
    - destruct (n_w c); [apply Nw|]. rewrite Nw. now apply grows_get.
    - destruct (n_inds c); [apply Ni|]. rewrite Ni. now apply grows_get. }
  rewrite !Hobj. fold s. split.
  { intros a Ha. unfold fields in Ha. cbn [In] in Ha.
    destruct Ha as [<-|[<-|[<-|[<-|[<-|[<-|[]]]]]]]; try (left; apply N1; cbn; tauto).
    - destruct (n_w c); [left; apply Nw|now right; left].
    - destruct (n_inds c); [left; apply Ni|now right; right]. }
  do 4 (split; [apply N1; cbn; tauto|]).
  split; [|exact Q3]. intros dm' dv' W'. unfold with_deques in W, W', Q2 |- *. rewrite W in W'. injection W' as <- <-. exact Q2.
Qed.
