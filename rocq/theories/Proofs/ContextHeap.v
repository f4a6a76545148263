(** Every parameter has a storage of its own with the shapes of its context and prior; effects of the updates. *)
From Coq Require Import Reals List Bool Arith String Lia.
From Verif.Model Require Import Base Xf Prior Context.
From Verif.Spec Require Import ContextSpec.
From Verif.Proofs Require Import ContextProofs.
Import ListNotations.
Local Open Scope list_scope.
Local Open Scope nat_scope.

Definition fits (b e : list nat) (t : tensor) : Prop :=
  t_batch t = b /\ t_event t = e /\ List.length (t_rows t) = prod_list b /\ Forall (fun r => List.length r = prod_list e) (t_rows t).
Notation obj_at w p := (nth p (w_objs w) no_obj).

Record coherent (w : world) : Prop := Coherent {
  co_obj : forall p, p < List.length (w_objs w) -> po_data (obj_at w p) < List.length (w_data w);
  co_inj : forall p q, p < List.length (w_objs w) -> q < List.length (w_objs w) -> po_data (obj_at w p) = po_data (obj_at w q) -> p = q;
  co_keys : forall c, exists_ctx w c -> NoDup (names w c) /\ map fst (x_shapes (ctx_at w c)) = names w c /\ map fst (x_ushapes (ctx_at w c)) = names w c;
  co_param : forall c n p, exists_ctx w c -> In (n, p) (x_params (ctx_at w c)) ->
    p < List.length (w_objs w) /\ po_ctx (obj_at w p) = c /\ po_name (obj_at w p) = n /\
    exists d b, prior_at w c n = Some d /\ batch_of w c = Some b /\
      od_get n (x_shapes (ctx_at w c)) = Some (d_event d) /\ od_get n (x_ushapes (ctx_at w c)) = Some (d_uevent d) /\ fits b (d_event d) (value_at w p)
}.

Lemma coherent_empty : coherent no_world.
Proof. constructor; unfold exists_ctx; cbn; intros; lia. Qed.

(** Writing to a storage. *)
Definition upd (w : world) (p : nat) (rows : list (list xf)) : world :=
  World (replace_nth (po_data (obj_at w p)) (Tensor (t_batch (value_at w p)) (t_event (value_at w p)) rows) (w_data w)) (w_objs w) (w_ctxs w) (w_rnd w).
Lemma copy_rows_eq p rows w : copy_rows p rows w =
  if (List.length rows =? List.length (t_rows (value_at w p))) && forallb (fun r => List.length r =? prod_list (t_event (value_at w p))) rows
  then (upd w p rows, Ok tt) else (w, Raise RuntimeError).
Proof. unfold copy_rows, abind, get_obj, get_data. fold (value_at w p). destruct (_ && _); reflexivity. Qed.
Lemma upd_value w p rows q : coherent w -> p < List.length (w_objs w) -> q < List.length (w_objs w) ->
  value_at (upd w p rows) q = if q =? p then Tensor (t_batch (value_at w p)) (t_event (value_at w p)) rows else value_at w q.
Proof.
  intros C P Q. unfold value_at at 1. cbn [upd w_data w_objs]. rewrite rep_nth.
  destruct (Nat.eqb_spec (po_data (obj_at w q)) (po_data (obj_at w p))) as [E|E].
  - apply co_inj in E; auto. subst q. rewrite Nat.eqb_refl. pose proof (co_obj w C p P) as L. apply Nat.ltb_lt in L. now rewrite L.
  - cbn [andb]. destruct (Nat.eqb_spec q p); [subst; contradiction|reflexivity].
Qed.
(** In general a storage is replaced by one of the same shape. *)
Lemma copy_rows_value w p rows q b e : fits b e (value_at w q) -> fits b e (value_at (fst (copy_rows p rows w)) q).
Proof.
  intros F. rewrite copy_rows_eq. destruct (_ && _) eqn:G; [|exact F]. apply andb_true_iff in G. destruct G as [G1 G2]. apply Nat.eqb_eq in G1.
  cbn [fst]. unfold value_at. cbn [upd w_data w_objs]. rewrite rep_nth.
  destruct (Nat.eqb_spec (po_data (obj_at w q)) (po_data (obj_at w p))) as [E|E]; [|exact F]. cbn [andb].
  destruct (_ <? _); [|exact F]. unfold value_at in *. rewrite E in F. destruct F as (F1 & F2 & F3 & F4). repeat split; cbn; auto; try congruence.
  apply Forall_forall. intros r I. rewrite forallb_forall in G2. specialize (G2 r I). apply Nat.eqb_eq in G2. congruence.
Qed.
Lemma co_same_tables w w' : w_ctxs w' = w_ctxs w -> w_objs w' = w_objs w -> List.length (w_data w') = List.length (w_data w) ->
  (forall q b e, fits b e (value_at w q) -> fits b e (value_at w' q)) -> coherent w -> coherent w'.
Proof.
  intros X O L V [A B K P]. constructor; rewrite ?O, ?L; auto; unfold exists_ctx, names, prior_at, batch_of, ctx_at in *; rewrite X; auto.
  intros c n p H I. destruct (P c n p H I) as (P1 & P2 & P3 & d & b & D & Y & S & U & F). do 3 (split; [assumption|]).
  exists d, b. do 4 (split; [assumption|]). now apply V.
Qed.
Lemma co_copy_rows p rows : keeps coherent (copy_rows p rows).
Proof.
  intros w C. apply (co_same_tables w); auto; try (rewrite copy_rows_eq; destruct (_ && _); cbn; rewrite ?rep_len; reflexivity).
  intros. now apply copy_rows_value.
Qed.
(** Writing to the tables of a context, keeping what is registered. *)
Lemma co_put w c x : coherent w -> x_params x = x_params (ctx_at w c) -> x_priors x = x_priors (ctx_at w c) -> x_shapes x = x_shapes (ctx_at w c) ->
  x_ushapes x = x_ushapes (ctx_at w c) -> (x_batch x = x_batch (ctx_at w c) \/ x_batch (ctx_at w c) = None) -> coherent (fst (put_ctx c x w)).
Proof.
  intros [A B K P] E1 E2 E3 E4 E5. pose proof (ctx_put w c x) as T. pose proof (exists_put w c x) as T2. set (w' := fst (put_ctx c x w)) in *.
  constructor; auto.
  - intros c' H. apply T2 in H. specialize (K c' H). unfold names in *. rewrite T. destruct (Nat.eqb_spec c' c); [subst|exact K]. destruct (_ <? _); [|exact K].
    cbn [andb]. rewrite E1, E3, E4. exact K.
  - intros c' n p H. apply T2 in H. unfold prior_at, batch_of. rewrite T. destruct (Nat.eqb_spec c' c) as [->|N]; [|apply (P c' n p H)].
    pose proof H as H'. apply Nat.ltb_lt in H'. rewrite H'. cbn [andb]. rewrite E1, E2, E3, E4. intros I.
    destruct (P c n p H I) as (P1 & P2 & P3 & d & b & D & Y & S & U & F). do 3 (split; [assumption|]). exists d, b. split; [exact D|].
    split; [|auto]. destruct E5 as [->|E5]; [exact Y|]. unfold batch_of in Y. congruence.
Qed.
Lemma co_set_batch c s : keeps coherent (set_batch_shape c s).
Proof.
  intros w C. unfold set_batch_shape, abind, get_ctx. fold (ctx_at w c). destruct (x_batch (ctx_at w c)) eqn:E; [destruct list_eq_dec; exact C|].
  apply co_put; auto.
Qed.
Lemma co_set_verify c s : keeps coherent (set_verify c s).
Proof. intros w C. unfold set_verify, abind, get_ctx. fold (ctx_at w c). apply co_put; auto. Qed.
Lemma co_new_ctx q : keeps coherent (new_ctx (empty_ctx q)).
Proof.
  intros w [A B K P]. pose proof (ctx_new w (empty_ctx q)) as T. set (w' := fst (new_ctx _ w)) in *.
  assert (X : forall c, exists_ctx w' c -> c <> List.length (w_ctxs w) -> exists_ctx w c) by (unfold exists_ctx; cbn; intros c; rewrite app_length; cbn; lia).
  constructor; auto.
  - intros c H. unfold names. rewrite T. destruct (Nat.eqb_spec c (List.length (w_ctxs w))); [cbn; auto using NoDup_nil|]. apply K. auto.
  - intros c n p H. unfold prior_at, batch_of. rewrite T. destruct (Nat.eqb_spec c (List.length (w_ctxs w))); [easy|]. apply (P c n p). auto.
Qed.

Section Sampler.
  Variable sample : nat -> dist -> nat -> list (list xf).
  Hypothesis sample_good : sampler_ok sample.

  Lemma co_named c n d : keeps coherent (named_parameter sample c n d).
  Proof.
    intros w C. rewrite named_eq. destruct (x_batch (ctx_at w c)) as [b|] eqn:B; [|exact C].
    pose proof (some_exists w c b B) as H.
    destruct (prior_at w c n) as [k|] eqn:K; [destruct (verifies w c); [destruct (equivalent_to k d) as [[|]|]|]; exact C|].
    assert (Q : ~ In n (names w c)).
    { intros I. unfold names in I. apply in_map_iff in I. destruct I as ([n' p] & E & I). cbn in E. subst n'. destruct (co_param w C c n p H I) as (_ & _ & _ & d' & b' & D & _). congruence. }
    rewrite register_eq by exact H. destruct C as [A I Y P]. destruct (d_batched d); cbn [fst].
    - set (w' := World _ _ _ _). assert (T : forall c', exists_ctx w c' -> ctx_at w' c' = if c' =? c then with_prior (ctx_at w c) n d else ctx_at w c').
      { intros c' H'. unfold ctx_at at 1. cbn. rewrite rep_nth. apply Nat.ltb_lt in H'. rewrite H'. now rewrite andb_true_r. }
      assert (T2 : forall c', exists_ctx w' c' -> exists_ctx w c') by (intros c'; unfold exists_ctx; cbn; now rewrite rep_len).
      constructor; auto.
      + intros c' H'. apply T2 in H'. unfold names. rewrite T by exact H'. destruct (Nat.eqb_spec c' c); [subst; exact (Y c H)|exact (Y c' H')].
      + intros c' m p H' J. apply T2 in H'. unfold prior_at, batch_of. rewrite T in * by exact H'. destruct (Nat.eqb_spec c' c) as [->|N]; [|exact (P c' m p H' J)].
        destruct (P c m p H J) as (P1 & P2 & P3 & d' & b' & D & X & S & U & F). do 3 (split; [assumption|]). exists d', b'. split; [|auto]. cbn. rewrite od_get_set.
        destruct (String.eqb_spec m n); [|exact D]. subst. exfalso. unfold prior_at in D, K. congruence.
    - set (w' := World _ _ _ _).
      assert (T : forall c', exists_ctx w c' -> ctx_at w' c' = if c' =? c then with_param (ctx_at w c) n d (List.length (w_objs w)) else ctx_at w c').
      { intros c' H'. unfold ctx_at at 1. cbn. rewrite rep_nth. apply Nat.ltb_lt in H'. rewrite H'. now rewrite andb_true_r. }
      assert (T2 : forall c', exists_ctx w' c' -> exists_ctx w c') by (intros c'; unfold exists_ctx; cbn; now rewrite rep_len).
      assert (O : forall p, p < List.length (w_objs w) -> obj_at w' p = obj_at w p) by (intros; cbn; now apply app_nth1).
      assert (O' : obj_at w' (List.length (w_objs w)) = PObj c n (List.length (w_data w))) by (cbn; apply app_nth_new).
      assert (V : forall p, p < List.length (w_objs w) -> value_at w' p = value_at w p).
      { intros p L. unfold value_at. rewrite O by exact L. cbn. apply app_nth1. now apply A. }
      assert (L : List.length (w_objs w') = S (List.length (w_objs w))) by (cbn; rewrite app_length; cbn; lia).
      assert (L2 : List.length (w_data w') = S (List.length (w_data w))) by (cbn; rewrite app_length; cbn; lia).
      assert (Z : forall p, p < List.length (w_objs w') -> p < List.length (w_objs w) \/ p = List.length (w_objs w)) by (intros; lia).
      assert (QS : forall V (tab : odict V), map fst tab = names w c -> od_get n tab = None) by (intros V0 tab E; apply od_get_none; now rewrite E).
      destruct (Y c H) as (Y1 & Y2 & Y3).
      constructor.
      + intros p Hp. rewrite L2. destruct (Z p Hp) as [Hq| ->]; [rewrite O by exact Hq; specialize (A p Hq); lia|rewrite O'; cbn; lia].
      + intros p q Hp Hq. destruct (Z p Hp) as [Hp'| ->], (Z q Hq) as [Hq'| ->]; rewrite ?O', ?O by assumption; cbn [po_data]; auto.
        * specialize (A p Hp'). lia.
        * specialize (A q Hq'). lia.
      + intros c' H'. apply T2 in H'. unfold names. rewrite T by exact H'. destruct (Nat.eqb_spec c' c); [subst|exact (Y c' H')]. cbn.
        rewrite !od_set_keys_new by (apply QS; auto). unfold names in *. rewrite Y2, Y3. split; [|auto]. apply nodup_snoc; assumption.
      + intros c' m p H' J. apply T2 in H'. unfold prior_at, batch_of. rewrite T in * by exact H'. destruct (Nat.eqb_spec c' c) as [->|N].
        * cbn [with_param x_params x_priors x_batch x_shapes x_ushapes] in J |- *. rewrite od_set_new in J by (apply QS; reflexivity). apply in_app_or in J. destruct J as [J|[J|[]]].
          -- destruct (P c m p H J) as (P1 & P2 & P3 & d' & b' & D & X & S & U & F). rewrite O by exact P1. split; [lia|]. do 2 (split; [assumption|]).
             exists d', b'. rewrite !od_get_set. destruct (String.eqb_spec m n); [subst; exfalso; unfold prior_at in D, K; congruence|].
             rewrite V by exact P1. auto.
          -- injection J as <- <-. rewrite O'. split; [lia|]. split; [reflexivity|]. split; [reflexivity|]. exists d, b. rewrite !od_get_set, String.eqb_refl.
             do 4 (split; [assumption || reflexivity|]). unfold value_at. rewrite O'. cbn [po_data]. cbn [w_data w']. rewrite app_nth_new.
             destruct (sample_good (w_rnd w) d (prod_list b)) as [G1 G2]. repeat split; cbn; auto.
        * destruct (P c' m p H' J) as (P1 & P2 & P3 & d' & b' & D & X & S & U & F). rewrite O by exact P1. split; [lia|]. do 2 (split; [assumption|]).
          exists d', b'. rewrite V by exact P1. auto.
  Qed.
  #[local] Hint Resolve co_named co_new_ctx co_set_verify co_set_batch co_copy_rows : keeps.
  Lemma co_update_values p rows b : keeps coherent (update_values p rows b).
  Proof. unfold update_values. keeps_tac. Qed.
  #[local] Hint Resolve co_update_values : keeps.
  Lemma co_copy c : keeps coherent (copy sample c).
  Proof. unfold copy, apply_fun. keeps_tac. all: destruct a1 as [[[? ?] ?] ?]; keeps_tac. Qed.
  Lemma co_perform o : no_load o -> keeps coherent (perform sample o).
  Proof.
    intros N. destruct o; cbn [perform]; apply keeps_bind; try (intros; apply keeps_ret); auto with keeps.
    - unfold unstack_parameters. keeps_tac. apply keeps_apply. intros. auto with keeps.
    - unfold resample. keeps_tac.
    - unfold exchange. keeps_tac.
    - destruct N.
    - apply co_copy.
  Qed.
  Lemma co_reach l : Forall no_load l -> coherent (history sample l no_world).
  Proof. intros U. apply keeps_history; [|apply coherent_empty]. intros o I. apply co_perform. rewrite Forall_forall in U. auto. Qed.
End Sampler.

(** * Loops updating one parameter after the other *)
Section Loop.
  Context {A : Type} (pid : A -> nat) (body : A -> act unit) (g : A -> res (list (list xf))) (l : list A) (w : world).
  Hypothesis C : coherent w.
  Hypothesis pid_ok : forall a, In a l -> pid a < List.length (w_objs w).
  Hypothesis pid_nodup : NoDup (map pid l).
  Definition agrees (w' : world) (a : A) : Prop :=
    w_objs w' = w_objs w /\ w_ctxs w' = w_ctxs w /\ value_at w' (pid a) = value_at w (pid a) /\
    forall q, q < List.length (w_objs w) -> ~ In q (map pid l) -> value_at w' q = value_at w q.
  Hypothesis body_ok : forall a w', In a l -> agrees w' a ->
    body a w' = match g a with Ok rows => copy_rows (pid a) rows w' | Raise e => (w', Raise e) end.
  Definition g' (a : A) : res (list (list xf)) :=
    match g a with
    | Ok rows => if (List.length rows =? List.length (t_rows (value_at w (pid a)))) && forallb (fun r => List.length r =? prod_list (t_event (value_at w (pid a)))) rows
                 then Ok rows else Raise RuntimeError
    | Raise e => Raise e
    end.
  Definition set_rows (t : tensor) rows : tensor := Tensor (t_batch t) (t_event t) rows.
  Definition after (l1 : list A) (w' : world) : Prop :=
    coherent w' /\ same_tables w w' /\
    (forall a, In a l1 -> exists rows, g' a = Ok rows /\ value_at w' (pid a) = set_rows (value_at w (pid a)) rows) /\
    (forall q, q < List.length (w_objs w) -> ~ In q (map pid l1) -> value_at w' q = value_at w q).

  Lemma loop_from l1 l2 w1 : l = l1 ++ l2 -> after l1 w1 ->
    exists l1' l2', l = l1' ++ l2' /\ after l1' (fst (for_each l2 body w1)) /\
      match l2' with [] => snd (for_each l2 body w1) = Ok tt | a :: _ => exists e, g' a = Raise e /\ snd (for_each l2 body w1) = Raise e end.
  Proof.
    revert l1 w1. induction l2 as [|a l2 IH]; intros l1 w1 E F.
    - exists l1, []. cbn. auto.
    - assert (I : In a l) by (rewrite E; apply in_or_app; right; now left).
      destruct F as (F1 & (T1 & T2 & T3) & F3 & F4).
      assert (Na : ~ In (pid a) (map pid l1)).
      { intros J. rewrite E, map_app in pid_nodup. cbn in pid_nodup. apply NoDup_remove_2 in pid_nodup. apply pid_nodup. apply in_or_app. now left. }
      assert (V : value_at w1 (pid a) = value_at w (pid a)) by (apply F4; auto).
      assert (G : agrees w1 a).
      { split; [exact T2|]. split; [exact T1|]. split; [exact V|]. intros q Q N. apply F4; [exact Q|]. intros J. apply N. rewrite E, map_app. apply in_or_app. now left. }
      assert (Ga : body a w1 = match g' a with Ok rows => (upd w1 (pid a) rows, Ok tt) | Raise e => (w1, Raise e) end).
      { rewrite (body_ok a w1 I G). unfold g'. destruct (g a) as [rows|e]; [|reflexivity]. rewrite copy_rows_eq, V. now destruct (_ && _). }
      cbn [for_each]. unfold abind. rewrite Ga. destruct (g' a) as [rows|e] eqn:Eg.
      + apply (IH (l1 ++ [a])); [now rewrite <- app_assoc|].
        assert (L1 : pid a < List.length (w_objs w1)) by (rewrite T2; auto).
        split; [|split; [|split]].
        * pose proof (co_copy_rows (pid a) rows w1 F1) as K. rewrite (body_ok a w1 I G) in Ga. unfold g' in Eg. destruct (g a) as [rows'|]; [|discriminate].
          destruct (_ && _); [|discriminate]. injection Eg as ->. rewrite Ga in K. exact K.
        * repeat split; assumption.
        * intros a' J. apply in_app_or in J. destruct J as [J|[->|[]]].
          -- destruct (F3 a' J) as (rows' & R1 & R2). exists rows'. split; [exact R1|]. rewrite upd_value; auto.
             ++ destruct (Nat.eqb_spec (pid a') (pid a)) as [Q|Q]; [|exact R2]. exfalso. apply Na. rewrite <- Q. now apply in_map.
             ++ rewrite T2. apply pid_ok. rewrite E. apply in_or_app. now left.
          -- exists rows. split; [exact Eg|]. rewrite upd_value by auto. rewrite Nat.eqb_refl. now rewrite V.
        * intros q Q N. rewrite map_app, in_app_iff in N. rewrite upd_value; auto; [|now rewrite T2].
          destruct (Nat.eqb_spec q (pid a)); [exfalso; apply N; right; left; auto|]. apply F4; auto.
      + exists l1, (a :: l2). split; [exact E|]. split; [|exists e; auto]. split; [exact F1|]. split; [repeat split; assumption|]. auto.
  Qed.
  Lemma loop_effect : exists l1 l2, l = l1 ++ l2 /\ after l1 (fst (for_each l body w)) /\
      match l2 with [] => snd (for_each l body w) = Ok tt | a :: _ => exists e, g' a = Raise e /\ snd (for_each l body w) = Raise e end.
  Proof.
    apply (loop_from [] l w); [reflexivity|]. split; [exact C|]. split; [repeat split|]. split; [intros a []|]. auto.
  Qed.
End Loop.

(** * Parameters by name *)
Lemma param_in w c n p : coherent w -> exists_ctx w c -> (In (n, p) (x_params (ctx_at w c)) <-> param_id w c n = Some p).
Proof.
  intros C H. split; [|apply od_get_in]. apply od_in_get. destruct (co_keys w C c H) as [N _]. exact N.
Qed.
Lemma params_nodup w c : coherent w -> exists_ctx w c -> NoDup (map snd (x_params (ctx_at w c))).
Proof.
  intros C H. destruct (co_keys w C c H) as [N _]. unfold names in N. revert N.
  assert (I : forall n p, In (n, p) (x_params (ctx_at w c)) -> po_name (obj_at w p) = n) by (intros n p I; now apply (co_param w C c)).
  induction (x_params (ctx_at w c)) as [|[n p] l IH]; cbn; [constructor|]. intros N. inversion N; subst. constructor.
  - intros J. apply in_map_iff in J. destruct J as ([m q] & E & J). cbn in E. subst q. apply H2.
    rewrite <- (I n p) by now left. rewrite (I m p) by now right. now apply (in_map fst) in J.
  - apply IH; auto. intros. apply I. now right.
Qed.
Lemma names_params w c n : In n (names w c) -> exists p, In (n, p) (x_params (ctx_at w c)).
Proof. unfold names. intros I. apply in_map_iff in I. destruct I as ([m p] & E & I). cbn in E. subst. eauto. Qed.

(** Functions applied to all parameters of a context: the effect by name. *)
Lemma by_name w w' c n p : coherent w -> same_tables w w' -> exists_ctx w c -> In (n, p) (x_params (ctx_at w c)) -> value w' c n = Some (value_at w' p) /\ value w c n = Some (value_at w p).
Proof.
  intros C (T1 & T2 & _) H I. apply param_in in I; auto. unfold value, param_id in *. unfold ctx_at in *. rewrite T1. rewrite I. auto.
Qed.
Lemma same_tables_names w w' c : same_tables w w' -> names w' c = names w c.
Proof. intros (T & _). unfold names, ctx_at. now rewrite T. Qed.

(** * Resampling *)
Lemma gather_len l idx r : gather_rows l idx = Ok r -> List.length r = List.length idx.
Proof.
  revert r. induction idx as [|i idx IH]; cbn; [intros r [= <-]; reflexivity|]. intros r. destruct (nth_error l i); [|discriminate].
  destruct (gather_rows l idx); [|discriminate]. cbn. intros [= <-]. cbn. f_equal. now apply IH.
Qed.
Lemma gather_spec l idx : Forall (fun i => i < List.length l) idx -> gather_rows l idx = Ok (map (fun i => nth i l []) idx).
Proof.
  induction 1 as [|i idx H F IH]; [reflexivity|]. cbn. destruct (nth_error l i) eqn:E; [|apply nth_error_None in E; lia].
  rewrite IH. cbn. now rewrite (nth_error_nth l i [] E).
Qed.
Lemma gather_bad l idx : ~ Forall (fun i => i < List.length l) idx -> gather_rows l idx = Raise IndexError.
Proof.
  induction idx as [|i idx IH]; intros N; [exfalso; apply N; constructor|]. cbn. destruct (nth_error l i) eqn:E; [|reflexivity].
  assert (i < List.length l) by (apply nth_error_Some; congruence). rewrite IH; [reflexivity|]. intros F. apply N. now constructor.
Qed.
