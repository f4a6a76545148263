(** Lemmas about the contexts. *)
From Coq Require Import Reals List Bool Arith String Lia.
From Verif.Model Require Import Base Xf Prior Context.
From Verif.Spec Require Import ContextSpec.
Import ListNotations.
Local Open Scope list_scope.
Local Open Scope nat_scope.

(** * Lists and dictionaries *)
Lemma rep_len {A} n (a : A) l : List.length (replace_nth n a l) = List.length l.
Proof. revert n. induction l; destruct n; cbn; auto. Qed.
Lemma rep_nth {A} i j (a d : A) l : nth i (replace_nth j a l) d = if (i =? j) && (i <? List.length l) then a else nth i l d.
Proof.
  revert i j. induction l as [|b l IH]; intros i j.
  - cbn. destruct j, i; rewrite ?andb_false_r; reflexivity.
  - destruct j, i; cbn [replace_nth nth Nat.eqb andb List.length]; try reflexivity. rewrite IH.
    destruct (i =? j); [|reflexivity]. cbn. reflexivity.
Qed.
Lemma app_nth_new {A} (l : list A) a d : nth (List.length l) (l ++ [a]) d = a.
Proof. rewrite app_nth2 by lia. now rewrite Nat.sub_diag. Qed.

Lemma od_get_set {V} k k' (v : V) d : od_get k (od_set k' v d) = if String.eqb k k' then Some v else od_get k d.
Proof.
  induction d as [|[k2 v2] d IH]; cbn; [reflexivity|].
  destruct (String.eqb_spec k' k2); cbn.
  - subst. now destruct (String.eqb_spec k k2).
  - rewrite IH. destruct (String.eqb_spec k k2), (String.eqb_spec k k'); subst; congruence.
Qed.
Lemma od_get_in {V} k (d : odict V) v : od_get k d = Some v -> In (k, v) d.
Proof.
  induction d as [|[k2 v2] d IH]; cbn; [discriminate|].
  destruct (String.eqb_spec k k2); [intros [= ->]; subst; now left|]. intros H. right. auto.
Qed.
Lemma od_in_get {V} k (d : odict V) v : NoDup (map fst d) -> In (k, v) d -> od_get k d = Some v.
Proof.
  induction d as [|[k2 v2] d IH]; cbn; [easy|]. intros N [E|I]; inversion N; subst.
  - injection E as -> ->. now rewrite String.eqb_refl.
  - destruct (String.eqb_spec k k2); [subst; exfalso; apply H1; now apply (in_map fst) in I|]. auto.
Qed.
Lemma od_get_none {V} k (d : odict V) : od_get k d = None <-> ~ In k (map fst d).
Proof.
  induction d as [|[k2 v2] d IH]; cbn; [tauto|]. destruct (String.eqb_spec k k2); subst.
  - split; [discriminate|]. intros H. exfalso. apply H. now left.
  - rewrite IH. intuition congruence.
Qed.
Lemma od_get_some {V} k (d : odict V) : In k (map fst d) -> exists v, od_get k d = Some v.
Proof. intros H. destruct (od_get k d) eqn:E; [eauto|]. now apply od_get_none in E. Qed.
Lemma od_set_new {V} k (v : V) d : od_get k d = None -> od_set k v d = d ++ [(k, v)].
Proof. induction d as [|[k2 v2] d IH]; cbn; [reflexivity|]. destruct (String.eqb k k2); [discriminate|]. intros H. now rewrite IH. Qed.
Lemma od_set_keys_new {V} k (v : V) d : od_get k d = None -> map fst (od_set k v d) = map fst d ++ [k].
Proof. intros H. rewrite od_set_new by exact H. now rewrite map_app. Qed.
Lemma nodup_snoc {A} (l : list A) a : NoDup l -> ~ In a l -> NoDup (l ++ [a]).
Proof. intros N H. apply (NoDup_Add (a:=a) (l:=l)); [|auto]. rewrite <- (app_nil_r l) at 1. apply Add_app. Qed.

(** * Reading the world after a write *)
Lemma ctx_put w c x c' : ctx_at (fst (put_ctx c x w)) c' = if (c' =? c) && (c' <? List.length (w_ctxs w)) then x else ctx_at w c'.
Proof. apply rep_nth. Qed.

(** * What every operation leaves in place *)
Record grows (w w' : world) : Prop := Grows {
  g_ctxs : List.length (w_ctxs w) <= List.length (w_ctxs w');
  g_objs : List.length (w_objs w) <= List.length (w_objs w');
  g_data : List.length (w_data w) <= List.length (w_data w');
  g_batch : forall c b, exists_ctx w c -> batch_of w c = Some b -> batch_of w' c = Some b;
  g_prior : forall c n d, exists_ctx w c -> prior_at w c n = Some d -> prior_at w' c n = Some d;
  g_param : forall c n p, exists_ctx w c -> param_id w c n = Some p -> param_id w' c n = Some p;
  g_obj : forall p, p < List.length (w_objs w) -> po_ctx (nth p (w_objs w') no_obj) = po_ctx (nth p (w_objs w) no_obj) /\
                    po_name (nth p (w_objs w') no_obj) = po_name (nth p (w_objs w) no_obj)
}.
Lemma grows_refl w : grows w w.
Proof. constructor; auto. Qed.
Lemma grows_trans u v w : grows u v -> grows v w -> grows u w.
Proof.
  intros [] []. constructor; unfold exists_ctx in *; try lia; intros; auto.
  - apply g_batch1; [lia|]. auto.
  - apply g_prior1; [lia|]. auto.
  - apply g_param1; [lia|]. auto.
  - destruct (g_obj0 p H). destruct (g_obj1 p ltac:(lia)). split; congruence.
Qed.
Definition mono {A} (m : act A) : Prop := forall w, grows w (fst (m w)).
Lemma mono_ret {A} (a : A) : mono (ret a).
Proof. intros w. apply grows_refl. Qed.
Lemma mono_raise {A} e : mono (@raise A e).
Proof. intros w. apply grows_refl. Qed.
Lemma mono_lift {A} (x : res A) : mono (lift x).
Proof. intros w. apply grows_refl. Qed.
Lemma mono_bind {A B} (m : act A) (f : A -> act B) : mono m -> (forall a, mono (f a)) -> mono (abind m f).
Proof.
  intros H K w. unfold abind. specialize (H w). destruct (m w) as [w' [a|e]]; cbn in *; [|exact H].
  eapply grows_trans; [exact H|apply K].
Qed.
Lemma mono_for_each {A} (l : list A) f : (forall a, mono (f a)) -> mono (for_each l f).
Proof. intros H. induction l; cbn; [apply mono_ret|]. apply mono_bind; auto. Qed.
Lemma mono_collect {A B} (l : list A) (f : A -> act B) : (forall a, mono (f a)) -> mono (collect l f).
Proof. intros H. induction l; cbn; [apply mono_ret|]. apply mono_bind; auto. intros b. apply mono_bind; auto. intros. apply mono_ret. Qed.
Lemma mono_get_ctx c : mono (get_ctx c). Proof. intros w. apply grows_refl. Qed.
Lemma mono_get_obj c : mono (get_obj c). Proof. intros w. apply grows_refl. Qed.
Lemma mono_get_data c : mono (get_data c). Proof. intros w. apply grows_refl. Qed.
Lemma mono_new_data t : mono (new_data t).
Proof. intros w. constructor; cbn; rewrite ?app_length; auto; lia. Qed.
Lemma mono_new_obj t : mono (new_obj t).
Proof. intros w. constructor; cbn; rewrite ?app_length; auto; try lia. intros p H. now rewrite app_nth1 by exact H. Qed.
Lemma mono_put_data a t : mono (put_data a t).
Proof. intros w. constructor; cbn; rewrite ?rep_len; auto. Qed.
Lemma mono_new_ctx x : mono (new_ctx x).
Proof.
  intros w. assert (E : forall c, exists_ctx w c -> ctx_at (fst (new_ctx x w)) c = ctx_at w c) by (intros c H; apply app_nth1; exact H).
  constructor; cbn; rewrite ?app_length; try (cbn; lia); auto; unfold batch_of, prior_at, param_id; intros; now rewrite E.
Qed.
Lemma mono_draw sample d b : mono (draw sample d b).
Proof. intros w. constructor; cbn; auto. Qed.
Lemma mono_set_data p a : mono (set_data p a).
Proof.
  intros w. constructor; cbn; rewrite ?rep_len; auto. intros q H. rewrite rep_nth.
  destruct (q =? p) eqn:E; [|auto]. apply Nat.eqb_eq in E. subst q. destruct (Nat.ltb_spec p (List.length (w_objs w))); [cbn; auto|lia].
Qed.
(** A write to a context after reading it. *)
Lemma grows_put c x w :
  (forall b, batch_of w c = Some b -> x_batch x = Some b) ->
  (forall n d, prior_at w c n = Some d -> od_get n (x_priors x) = Some d) ->
  (forall n p, param_id w c n = Some p -> od_get n (x_params x) = Some p) -> grows w (fst (put_ctx c x w)).
Proof.
  intros B P Q. pose proof (ctx_put w c x) as E. set (w' := fst (put_ctx c x w)) in *.
  assert (L : List.length (w_ctxs w') = List.length (w_ctxs w)) by (cbn; apply rep_len).
  assert (K : forall c', exists_ctx w c' -> ctx_at w' c' = if c' =? c then x else ctx_at w c').
  { intros c' H. rewrite E. apply Nat.ltb_lt in H. rewrite H. now rewrite andb_true_r. }
  constructor; try (rewrite L; auto; fail); try (cbn; auto; fail);
  unfold batch_of, prior_at, param_id in *; intros c'; intros; rewrite K by assumption;
  destruct (Nat.eqb_spec c' c); subst; auto.
Qed.
Lemma mono_set_batch_shape c s : mono (set_batch_shape c s).
Proof.
  intros w. unfold set_batch_shape, abind, get_ctx. fold (ctx_at w c).
  destruct (x_batch (ctx_at w c)) eqn:E; [destruct list_eq_dec; apply grows_refl|].
  apply grows_put; cbn; auto. intros b K. unfold batch_of in K. congruence.
Qed.
Lemma mono_set_verify c b : mono (set_verify c b).
Proof. intros w. unfold set_verify, abind, get_ctx. fold (ctx_at w c). apply grows_put; cbn; auto. Qed.
Lemma mono_get_parameter c n : mono (get_parameter c n).
Proof. apply mono_bind; [apply mono_get_ctx|]. intros x. destruct od_get; [apply mono_ret|apply mono_raise]. Qed.

Lemma mono_register sample c n d b w : prior_at w c n = None -> (forall q, param_id w c n <> Some q) -> grows w (fst (register sample c n d b w)).
Proof.
  intros N M. unfold register. unfold abind at 1, get_ctx. fold (ctx_at w c).
  set (x1 := Ctx _ _ _ _ _ _ _). unfold abind at 1.
  assert (G : grows w (fst (put_ctx c x1 w))).
  { apply grows_put; unfold x1; cbn; auto. intros k e H. rewrite od_get_set. destruct (String.eqb_spec k n); [subst; congruence|exact H]. }
  destruct (d_batched d); [exact G|]. eapply grows_trans; [exact G|]. clear G.
  assert (M1 : forall q, param_id (fst (put_ctx c x1 w)) c n <> Some q).
  { intros q. unfold param_id. rewrite ctx_put. destruct (_ && _); apply M. }
  cbn [put_ctx]. change (grows (fst (put_ctx c x1 w)) (fst
   ((do! v <- draw sample d b in do! a <- new_data (Tensor b (d_event d) v) in do! p <- new_obj (PObj c n a) in
     do! x <- get_ctx c in do! _ <- put_ctx c (Ctx (x_batch x) (x_priors x) (od_set n p (x_params x)) (od_set n (d_event d) (x_shapes x))
                          (od_set n (d_uevent d) (x_ushapes x)) (x_verify x) (x_quasi x)) in ret p) (fst (put_ctx c x1 w))))).
  set (w1 := fst (put_ctx c x1 w)) in *. clearbody w1. clear x1 N M w.
  unfold abind at 1. pose proof (mono_draw sample d b w1) as G1. destruct (draw sample d b w1) as [w2 [v|e]] eqn:E1; [|discriminate].
  assert (M2 : ctx_at w2 c = ctx_at w1 c) by (unfold draw in E1; injection E1 as <-; reflexivity).
  eapply grows_trans; [exact G1|]. clear G1 E1. cbn [fst].
  unfold abind at 1. pose proof (mono_new_data (Tensor b (d_event d) v) w2) as G1. destruct (new_data _ w2) as [w3 [a|e]] eqn:E1; [|discriminate].
  assert (M3 : ctx_at w3 c = ctx_at w1 c) by (rewrite <- M2; unfold new_data in E1; injection E1 as <- _; reflexivity).
  eapply grows_trans; [exact G1|]. clear G1 E1. cbn [fst].
  unfold abind at 1. pose proof (mono_new_obj (PObj c n a) w3) as G1. destruct (new_obj _ w3) as [w4 [p|e]] eqn:E1; [|discriminate].
  assert (M4 : ctx_at w4 c = ctx_at w1 c) by (rewrite <- M3; unfold new_obj in E1; injection E1 as <- _; reflexivity).
  eapply grows_trans; [exact G1|]. clear G1 E1. cbn [fst].
  unfold abind at 1, get_ctx. fold (ctx_at w4 c). unfold abind at 1.
  match goal with |- grows _ (fst (let (_, _) := put_ctx c ?x w4 in _)) => change (grows w4 (fst (put_ctx c x w4))) end.
  apply grows_put; cbn; auto. intros k q H. rewrite od_get_set. destruct (String.eqb_spec k n); [|exact H]. subst.
  exfalso. unfold param_id in *. rewrite M4 in H. exact (M1 _ H).
Qed.

(** * Properties of worlds kept by operations *)
Definition keeps {A} (P : world -> Prop) (m : act A) : Prop := forall w, P w -> P (fst (m w)).
Lemma keeps_ret {A} P (a : A) : keeps P (ret a). Proof. now intros w. Qed.
Lemma keeps_raise {A} P e : keeps P (@raise A e). Proof. now intros w. Qed.
Lemma keeps_lift {A} P (x : res A) : keeps P (lift x). Proof. now intros w. Qed.
Lemma keeps_get_ctx P c : keeps P (get_ctx c). Proof. now intros w. Qed.
Lemma keeps_get_obj P c : keeps P (get_obj c). Proof. now intros w. Qed.
Lemma keeps_get_data P c : keeps P (get_data c). Proof. now intros w. Qed.
Lemma keeps_bind {A B} P (m : act A) (f : A -> act B) : keeps P m -> (forall a, keeps P (f a)) -> keeps P (abind m f).
Proof. intros H K w Hw. unfold abind. specialize (H w Hw). destruct (m w) as [w' [a|e]]; cbn in *; [now apply K|exact H]. Qed.
Lemma keeps_for_each {A} P (l : list A) f : (forall a, In a l -> keeps P (f a)) -> keeps P (for_each l f).
Proof. induction l; cbn; intros H; [apply keeps_ret|]. apply keeps_bind; auto. Qed.
Lemma keeps_collect {A B} P (l : list A) (f : A -> act B) : (forall a, In a l -> keeps P (f a)) -> keeps P (collect l f).
Proof. induction l; cbn; intros H; [apply keeps_ret|]. apply keeps_bind; auto. intros b. apply keeps_bind; auto. intros. apply keeps_ret. Qed.
Lemma keeps_get_parameter P c n : keeps P (get_parameter c n).
Proof. apply keeps_bind; [apply keeps_get_ctx|]. intros x. destruct od_get; [apply keeps_ret|apply keeps_raise]. Qed.
Lemma keeps_prior_of P p : keeps P (prior_of p).
Proof. apply keeps_bind; [apply keeps_get_obj|]. intros o. apply keeps_bind; [apply keeps_get_ctx|]. intros x. destruct od_get; [apply keeps_ret|apply keeps_raise]. Qed.
Lemma keeps_param_value P p : keeps P (param_value p).
Proof. apply keeps_bind; [apply keeps_get_obj|]. intros o. apply keeps_get_data. Qed.
#[global] Hint Resolve keeps_ret keeps_raise keeps_lift keeps_get_ctx keeps_get_obj keeps_get_data keeps_get_parameter keeps_prior_of keeps_param_value : keeps.
Ltac keeps_tac := repeat first
  [ solve [auto with keeps]
  | apply keeps_bind; [|intros ?]
  | apply keeps_for_each; intros ? ?
  | apply keeps_collect; intros ? ?
  | match goal with |- keeps _ (match ?x with _ => _ end) => destruct x eqn:? end
  | progress cbn beta iota ].

(** Parameters have priors. *)
Definition sub (w : world) : Prop := forall c n, exists_ctx w c -> prior_at w c n = None -> param_id w c n = None.
Definition since (w0 w : world) : Prop := sub w /\ grows w0 w.

Lemma since_mono {A} w0 (m : act A) : (forall w, w_ctxs (fst (m w)) = w_ctxs w) -> mono m -> keeps (since w0) m.
Proof.
  intros E M w [S G]. split.
  - intros c n. unfold exists_ctx, prior_at, param_id, ctx_at. rewrite E. apply S.
  - eapply grows_trans; [exact G|apply M].
Qed.
Lemma since_put_data w0 a t : keeps (since w0) (put_data a t).
Proof. apply since_mono; [reflexivity|apply mono_put_data]. Qed.
Lemma since_set_data w0 p a : keeps (since w0) (set_data p a).
Proof. apply since_mono; [reflexivity|apply mono_set_data]. Qed.
Lemma since_draw sample w0 d b : keeps (since w0) (draw sample d b).
Proof. apply since_mono; [reflexivity|apply mono_draw]. Qed.
Lemma ctx_new w x c : ctx_at (fst (new_ctx x w)) c = if c =? List.length (w_ctxs w) then x else ctx_at w c.
Proof.
  unfold ctx_at. cbn. destruct (Nat.eqb_spec c (List.length (w_ctxs w))); [subst; apply app_nth_new|].
  destruct (Nat.lt_ge_cases c (List.length (w_ctxs w))); [now apply app_nth1|].
  rewrite !nth_overflow; rewrite ?app_length; cbn; try reflexivity; lia.
Qed.
Lemma since_new_ctx w0 q : keeps (since w0) (new_ctx (empty_ctx q)).
Proof.
  intros w [S G]. split; [|eapply grows_trans; [exact G|apply mono_new_ctx]].
  intros c n. unfold prior_at, param_id. rewrite ctx_new. unfold exists_ctx. cbn. rewrite app_length. cbn.
  destruct (Nat.eqb_spec c (List.length (w_ctxs w))); [reflexivity|]. intros H. apply S. unfold exists_ctx. lia.
Qed.
Lemma since_copy_rows w0 p rows : keeps (since w0) (copy_rows p rows).
Proof. unfold copy_rows. keeps_tac. apply since_put_data. Qed.
Lemma exists_put w c x c' : exists_ctx (fst (put_ctx c x w)) c' <-> exists_ctx w c'.
Proof. unfold exists_ctx. cbn. now rewrite rep_len. Qed.
Lemma since_set_batch_shape w0 c s : keeps (since w0) (set_batch_shape c s).
Proof.
  intros w [S G]. split; [|eapply grows_trans; [exact G|apply mono_set_batch_shape]].
  unfold set_batch_shape, abind, get_ctx. fold (ctx_at w c). destruct (x_batch (ctx_at w c)); [destruct list_eq_dec; exact S|].
  intros c' n. rewrite exists_put. unfold prior_at, param_id. rewrite ctx_put. intros H. specialize (S c' n H).
  destruct (Nat.eqb_spec c' c); [|exact S]. subst. destruct (c <? _); exact S.
Qed.
Lemma since_set_verify w0 c s : keeps (since w0) (set_verify c s).
Proof.
  intros w [S G]. split; [|eapply grows_trans; [exact G|apply mono_set_verify]].
  unfold set_verify, abind, get_ctx. fold (ctx_at w c).
  intros c' n. rewrite exists_put. unfold prior_at, param_id. rewrite ctx_put. intros H. specialize (S c' n H).
  destruct (Nat.eqb_spec c' c); [|exact S]. subst. destruct (c <? _); exact S.
Qed.

(** Registration in closed form. *)
Lemma rep_rep {A} c (a b : A) l : replace_nth c b (replace_nth c a l) = replace_nth c b l.
Proof. revert c. induction l; destruct c; cbn; auto. now rewrite IHl. Qed.
Definition with_prior (x : ctx) n d : ctx := Ctx (x_batch x) (od_set n d (x_priors x)) (x_params x) (x_shapes x) (x_ushapes x) (x_verify x) (x_quasi x).
Definition with_param (x : ctx) n d p : ctx :=
  Ctx (x_batch x) (od_set n d (x_priors x)) (od_set n p (x_params x)) (od_set n (d_event d) (x_shapes x)) (od_set n (d_uevent d) (x_ushapes x)) (x_verify x) (x_quasi x).
Lemma register_eq sample c n d b w : exists_ctx w c -> register sample c n d b w =
  if d_batched d then (World (w_data w) (w_objs w) (replace_nth c (with_prior (ctx_at w c) n d) (w_ctxs w)) (w_rnd w), Raise AssertionError)
  else (World (w_data w ++ [Tensor b (d_event d) (sample (w_rnd w) d (prod_list b))])
              (w_objs w ++ [PObj c n (List.length (w_data w))])
              (replace_nth c (with_param (ctx_at w c) n d (List.length (w_objs w))) (w_ctxs w)) (S (w_rnd w)), Ok (List.length (w_objs w))).
Proof.
  intros H. unfold register, abind, get_ctx, put_ctx, draw, new_data, new_obj, ret, raise. fold (ctx_at w c). destruct (d_batched d); [reflexivity|].
  cbn [w_data w_objs w_ctxs w_rnd]. rewrite rep_nth, Nat.eqb_refl. apply Nat.ltb_lt in H. rewrite H. cbn [andb].
  rewrite rep_rep. reflexivity.
Qed.
Lemma since_named_parameter sample w0 c n d : keeps (since w0) (named_parameter sample c n d).
Proof.
  intros w [S G]. unfold named_parameter. unfold abind at 1, get_ctx. fold (ctx_at w c).
  destruct (x_batch (ctx_at w c)) as [b|] eqn:B; [|split; assumption].
  destruct (od_get n (x_priors (ctx_at w c))) as [k|] eqn:K.
  - refine (_ : (fun _ => _) tt). cut (keeps (since w0) (if x_verify (ctx_at w c) then do! same <- lift (equivalent_to k d) in if same then get_parameter c n else raise NotSamePriorError else get_parameter c n)); [|keeps_tac].
    intros Q. apply Q. now split.
  - destruct (Nat.lt_ge_cases c (List.length (w_ctxs w))) as [H|H].
    2:{ unfold ctx_at in B. rewrite nth_overflow in B by exact H. discriminate. }
    split.
    + rewrite register_eq by exact H. intros c' m. unfold exists_ctx, prior_at, param_id, ctx_at.
      destruct (d_batched d); cbn; rewrite rep_len, rep_nth; intros H'; specialize (S c' m H');
      destruct (Nat.eqb_spec c' c); try exact S; subst; apply Nat.ltb_lt in H; rewrite H; cbn.
      * fold (ctx_at w c). rewrite od_get_set. destruct (String.eqb m n); [discriminate|]. exact S.
      * fold (ctx_at w c). rewrite !od_get_set. destruct (String.eqb m n); [discriminate|]. exact S.
    + eapply grows_trans; [exact G|]. apply mono_register; [exact K|].
      intros q. specialize (S c n H K). congruence.
Qed.
#[global] Hint Resolve since_put_data since_set_data since_draw since_new_ctx since_copy_rows since_set_batch_shape since_set_verify since_named_parameter : keeps.

Lemma keeps_ext {A} P (m m' : act A) : (forall w, m w = m' w) -> keeps P m -> keeps P m'.
Proof. intros E K w Hw. rewrite <- E. now apply K. Qed.

Lemma since_update_values w0 p rows b : keeps (since w0) (update_values p rows b).
Proof. unfold update_values. keeps_tac. Qed.
#[global] Hint Resolve since_update_values : keeps.
Lemma keeps_apply P l shapes x i f : (forall p rows, In p (map snd l) -> keeps P (f p rows)) -> keeps P (apply_to_params l shapes x i f).
Proof.
  revert i. induction l as [|[n p] l IH]; cbn; intros i H; [apply keeps_ret|]. destruct od_get; [|apply keeps_raise].
  apply keeps_bind; auto.
Qed.
Lemma since_perform sample w0 o : keeps (since w0) (perform sample o).
Proof.
  destruct o; cbn [perform]; apply keeps_bind; try (intros; apply keeps_ret); auto with keeps.
  - unfold unstack_parameters. keeps_tac. apply keeps_apply. intros. auto with keeps.
  - unfold resample. keeps_tac.
  - unfold exchange. keeps_tac.
  - unfold load_state_dict. keeps_tac.
  - unfold copy, apply_fun. keeps_tac. all: destruct a1 as [[[? ?] ?] ?]; keeps_tac.
Qed.
Lemma history_app sample l l' w : history sample (l ++ l') w = history sample l' (history sample l w).
Proof. apply fold_left_app. Qed.
Lemma keeps_history P sample l : (forall o, In o l -> keeps P (perform sample o)) -> forall w, P w -> P (history sample l w).
Proof. unfold history. induction l; cbn; intros H w Hw; auto. apply IHl; auto. apply H; auto. Qed.
Lemma since_history sample l w : sub w -> since w (history sample l w).
Proof. intros S. apply keeps_history; [intros; apply since_perform|]. split; [exact S|apply grows_refl]. Qed.
Lemma sub_empty : sub no_world.
Proof. intros c n H. exfalso. unfold exists_ctx in H. cbn in H. lia. Qed.
Lemma sub_reach sample l : sub (history sample l no_world).
Proof. apply since_history, sub_empty. Qed.
Lemma grows_history sample l l' : grows (history sample l no_world) (history sample (l ++ l') no_world).
Proof. rewrite history_app. apply since_history, sub_reach. Qed.

(** * Names *)
(** The prior of a registered name and the parameter it is bound to. *)
Lemma registered sample c n d w w' p : sub w -> named_parameter sample c n d w = (w', Ok p) ->
  exists_ctx w' c /\ param_id w' c n = Some p /\ exists k, prior_at w' c n = Some k /\ (prior_at w c n = None -> k = d) /\ (prior_at w c n <> None -> w' = w).
Proof.
  intros S. unfold named_parameter. unfold abind at 1, get_ctx. fold (ctx_at w c).
  destruct (x_batch (ctx_at w c)) as [b|] eqn:B; [|discriminate].
  assert (H : exists_ctx w c).
  { destruct (Nat.lt_ge_cases c (List.length (w_ctxs w))) as [H|H]; [exact H|]. unfold ctx_at in B. rewrite nth_overflow in B by exact H. discriminate. }
  destruct (od_get n (x_priors (ctx_at w c))) as [k|] eqn:K.
  - intros E.
    assert (E' : get_parameter c n w = (w', Ok p)).
    { destruct (x_verify _); [|exact E]. unfold abind, lift in E. destruct (equivalent_to k d) as [[|]|]; try discriminate. exact E. }
    unfold get_parameter, abind, get_ctx in E'. fold (ctx_at w c) in E'. destruct (od_get n (x_params (ctx_at w c))) eqn:Q; [|discriminate].
    injection E' as <- <-. split; [exact H|]. split; [exact Q|]. exists k. unfold prior_at. rewrite K. auto. split; [reflexivity|]. split; [discriminate|auto].
  - intros E. rewrite register_eq in E by exact H. destruct (d_batched d); [discriminate|]. injection E as <- <-.
    unfold exists_ctx, param_id, prior_at, ctx_at. cbn. rewrite rep_len, rep_nth, Nat.eqb_refl. pose proof H as H'. apply Nat.ltb_lt in H'. rewrite H'. cbn.
    fold (ctx_at w c). rewrite !od_get_set, String.eqb_refl. split; [exact H|]. split; [reflexivity|]. exists d. split; [reflexivity|]. split; [reflexivity|].
    intros N. exfalso. apply N. exact K.
Qed.

(** * Contexts that an operation does not touch *)
Definition ctx_is (c : nat) (x : ctx) (w : world) : Prop := exists_ctx w c /\ ctx_at w c = x.
Lemma keeps_bind_res {A B} P (R : A -> Prop) (m : act A) (f : A -> act B) :
  keeps P m -> (forall w a w', P w -> m w = (w', Ok a) -> R a) -> (forall a, R a -> keeps P (f a)) -> keeps P (abind m f).
Proof.
  intros H I K w Hw. unfold abind. specialize (H w Hw). specialize (I w). destruct (m w) as [w' [a|e]] eqn:E; cbn in *; [|exact H].
  apply K; [|exact H]. now apply (I a w').
Qed.
Lemma is_put_data c x a t : keeps (ctx_is c x) (put_data a t). Proof. now intros w. Qed.
Lemma is_set_data c x a t : keeps (ctx_is c x) (set_data a t). Proof. now intros w. Qed.
Lemma is_draw sample c x d b : keeps (ctx_is c x) (draw sample d b). Proof. now intros w. Qed.
Lemma is_new_ctx c x y : keeps (ctx_is c x) (new_ctx y).
Proof.
  intros w [H E]. split; [unfold exists_ctx in *; cbn; rewrite app_length; cbn; lia|]. rewrite ctx_new.
  unfold exists_ctx in H. destruct (Nat.eqb_spec c (List.length (w_ctxs w))); [lia|exact E].
Qed.
Lemma is_put_ctx c x c' y : c' <> c -> keeps (ctx_is c x) (put_ctx c' y).
Proof. intros N w [H E]. split; [now apply exists_put|]. rewrite ctx_put. destruct (Nat.eqb_spec c c'); [congruence|exact E]. Qed.
Lemma is_copy_rows c x p rows : keeps (ctx_is c x) (copy_rows p rows).
Proof. unfold copy_rows. keeps_tac. apply is_put_data. Qed.
#[global] Hint Resolve is_put_data is_set_data is_draw is_new_ctx is_put_ctx is_copy_rows : keeps.
Lemma is_set_batch_shape c x c' s : c' <> c -> keeps (ctx_is c x) (set_batch_shape c' s).
Proof. intros N. unfold set_batch_shape. keeps_tac. Qed.
Lemma is_set_verify c x c' s : c' <> c -> keeps (ctx_is c x) (set_verify c' s).
Proof. intros N. unfold set_verify. keeps_tac. Qed.
Lemma is_new_data c x t : keeps (ctx_is c x) (new_data t). Proof. now intros w. Qed.
Lemma is_new_obj c x t : keeps (ctx_is c x) (new_obj t). Proof. now intros w. Qed.
#[global] Hint Resolve is_set_batch_shape is_set_verify is_new_data is_new_obj : keeps.
Lemma is_named_parameter sample c x c' n d : c' <> c -> keeps (ctx_is c x) (named_parameter sample c' n d).
Proof. intros N. unfold named_parameter, register. keeps_tac. Qed.
#[global] Hint Resolve is_named_parameter : keeps.
Lemma is_update_values c x p rows b : keeps (ctx_is c x) (update_values p rows b).
Proof. unfold update_values. keeps_tac. Qed.
#[global] Hint Resolve is_update_values : keeps.
(** The operations that change the tables of a context. *)
Definition retables (o : op) : option nat := match o with OShape c _ | ORegister c _ _ | OVerify c _ => Some c | _ => None end.
Lemma is_perform sample c x o : retables o <> Some c -> keeps (ctx_is c x) (perform sample o).
Proof.
  intros N. destruct o; cbn [perform]; apply keeps_bind; try (intros; apply keeps_ret); auto with keeps.
  - apply is_set_batch_shape. intros ->. now apply N.
  - apply is_named_parameter. intros ->. now apply N.
  - unfold unstack_parameters. keeps_tac. apply keeps_apply. intros. auto with keeps.
  - unfold resample. keeps_tac.
  - unfold exchange. keeps_tac.
  - unfold load_state_dict. keeps_tac.
  - unfold copy, apply_fun. apply keeps_bind; [keeps_tac|]. intros y. apply keeps_bind; [keeps_tac|]. intros temp.
    destruct temp as [|[[[b ?] ?] ?] temp]; [keeps_tac|]. destruct forallb; [|keeps_tac].
    apply (keeps_bind_res _ (fun a => a <> c)); [keeps_tac| |].
    + intros w a w' [H _]. unfold new_ctx. intros [= _ <-]. unfold exists_ctx in H. lia.
    + intros a Ha. keeps_tac.
  - apply is_set_verify. intros ->. now apply N.
Qed.

(** All registered names have parameters. *)
Definition full (w : world) : Prop := forall c, exists_ctx w c -> names w c = priors w c.
Lemma full_ctxs w w' : w_ctxs w' = w_ctxs w -> full w -> full w'.
Proof. intros E F c. unfold exists_ctx, names, priors, ctx_at. rewrite E. apply F. Qed.
Lemma named_eq sample c n d w : named_parameter sample c n d w =
  match x_batch (ctx_at w c) with
  | None => (w, Raise BatchShapeNotSet)
  | Some b =>
      match prior_at w c n with
      | Some k =>
          if verifies w c then match equivalent_to k d with
            | Ok true => (w, match param_id w c n with Some p => Ok p | None => Raise ParameterDoesNotExist end)
            | Ok false => (w, Raise NotSamePriorError)
            | Raise e => (w, Raise e)
            end
          else (w, match param_id w c n with Some p => Ok p | None => Raise ParameterDoesNotExist end)
      | None => register sample c n d b w
      end
  end.
Proof.
  unfold named_parameter. unfold abind at 1, get_ctx. fold (ctx_at w c). destruct (x_batch (ctx_at w c)); [|reflexivity].
  unfold prior_at, verifies, param_id. destruct (od_get n (x_priors (ctx_at w c))); [|reflexivity].
  assert (G : get_parameter c n w = (w, match od_get n (x_params (ctx_at w c)) with Some p => Ok p | None => Raise ParameterDoesNotExist end)).
  { unfold get_parameter, abind, get_ctx, ctx_at. now destruct od_get. }
  destruct (x_verify (ctx_at w c)); [|exact G]. unfold abind, lift. destruct (equivalent_to d0 d) as [[|]|]; [exact G|reflexivity|reflexivity].
Qed.
Lemma some_exists w c b : x_batch (ctx_at w c) = Some b -> exists_ctx w c.
Proof.
  intros B. destruct (Nat.lt_ge_cases c (List.length (w_ctxs w))) as [H|H]; [exact H|]. unfold ctx_at in B. rewrite nth_overflow in B by exact H. discriminate.
Qed.
(** What registration does to the tables. *)
Lemma names_named sample c n d w : full w -> d_batched d = false ->
  let w' := fst (named_parameter sample c n d w) in
  full w' /\ names w' c = match snd (named_parameter sample c n d w) with
                          | Ok _ => if existsb (String.eqb n) (names w c) then names w c else names w c ++ [n]
                          | Raise _ => names w c end.
Proof.
  intros F U. rewrite named_eq. destruct (x_batch (ctx_at w c)) as [b|] eqn:B; [|cbn; auto].
  pose proof (some_exists w c b B) as H.
  destruct (prior_at w c n) as [k|] eqn:K.
  - assert (I : existsb (String.eqb n) (names w c) = true).
    { apply existsb_exists. exists n. split; [|apply String.eqb_refl]. rewrite F by exact H. apply od_get_in in K. now apply (in_map fst) in K. }
    rewrite I. destruct (verifies w c); [destruct (equivalent_to k d) as [[|]|]|]; cbn; split; auto; now destruct (param_id w c n).
  - assert (I : existsb (String.eqb n) (names w c) = false).
    { apply not_true_is_false. rewrite existsb_exists. intros (m & I & E). apply String.eqb_eq in E. subst m.
      rewrite F in I by exact H. apply od_get_none in K. contradiction. }
    assert (Q : od_get n (x_params (ctx_at w c)) = None).
    { apply od_get_none. intros Q. apply od_get_none in K. apply K. pose proof (F c H) as F'. unfold names, priors in F'. now rewrite <- F'. }
    rewrite I, register_eq by exact H. rewrite U. cbn [fst snd]. set (w' := World _ _ _ _).
    assert (E : forall c', exists_ctx w c' -> ctx_at w' c' = if c' =? c then with_param (ctx_at w c) n d (List.length (w_objs w)) else ctx_at w c').
    { intros c' Hc. unfold ctx_at at 1. cbn. rewrite rep_nth. apply Nat.ltb_lt in Hc. rewrite Hc. now rewrite andb_true_r. }
    assert (L : forall c', exists_ctx w' c' <-> exists_ctx w c') by (intros; unfold exists_ctx; cbn; now rewrite rep_len).
    split.
    + intros c' Hc. apply L in Hc. unfold names, priors. rewrite E by exact Hc. destruct (Nat.eqb_spec c' c); [|now apply F]. subst c'.
      cbn. rewrite (od_set_keys_new n d) by exact K. rewrite (od_set_keys_new n) by exact Q. f_equal. now apply F.
    + unfold names. rewrite E by exact H. rewrite Nat.eqb_refl. cbn. now apply od_set_keys_new.
Qed.

Lemma full_put w c x : full w -> map fst (x_params x) = map fst (x_priors x) -> full (fst (put_ctx c x w)).
Proof.
  intros F E c' H. apply exists_put in H. unfold names, priors. rewrite ctx_put. destruct (_ && _); [exact E|now apply F].
Qed.
Lemma full_ctx w c : full w -> map fst (x_params (ctx_at w c)) = map fst (x_priors (ctx_at w c)).
Proof.
  intros F. destruct (Nat.lt_ge_cases c (List.length (w_ctxs w))) as [H|H]; [now apply F|]. unfold ctx_at. rewrite nth_overflow by exact H. reflexivity.
Qed.
Lemma full_set_batch c s : keeps full (set_batch_shape c s).
Proof.
  intros w F. unfold set_batch_shape, abind, get_ctx. fold (ctx_at w c). destruct (x_batch (ctx_at w c)); [destruct list_eq_dec; exact F|].
  apply full_put; [exact F|]. cbn. now apply full_ctx.
Qed.
Lemma full_set_verify c s : keeps full (set_verify c s).
Proof. intros w F. unfold set_verify, abind, get_ctx. fold (ctx_at w c). apply full_put; [exact F|]. cbn. now apply full_ctx. Qed.
Lemma full_new q : keeps full (new_ctx (empty_ctx q)).
Proof.
  intros w F c H. unfold names, priors. rewrite ctx_new. destruct (Nat.eqb_spec c (List.length (w_ctxs w))); [reflexivity|]. apply F.
  unfold exists_ctx in *. cbn in H. rewrite app_length in H. cbn in H. lia.
Qed.
Lemma full_put_data a t : keeps full (put_data a t). Proof. now intros w. Qed.
Lemma full_set_data a t : keeps full (set_data a t). Proof. now intros w. Qed.
Lemma full_copy_rows p rows : keeps full (copy_rows p rows).
Proof. unfold copy_rows. keeps_tac. apply full_put_data. Qed.
#[global] Hint Resolve full_set_batch full_set_verify full_new full_put_data full_set_data full_copy_rows : keeps.
Lemma full_update_values p rows b : keeps full (update_values p rows b).
Proof. unfold update_values. keeps_tac. Qed.
#[global] Hint Resolve full_update_values : keeps.
(** All priors are unbatched, needed for copies. *)
Definition tidy (w : world) : Prop := full w /\ forall c n d, exists_ctx w c -> In (n, d) (x_priors (ctx_at w c)) -> d_batched d = false.
Lemma od_set_in {V} k n (d v : V) l : In (k, v) (od_set n d l) -> v = d \/ In (k, v) l.
Proof.
  induction l as [|[k2 v2] l IH]; cbn; [intros [[= _ <-]|[]]; now left|]. destruct (String.eqb n k2); cbn; [intros [[= _ <-]|H]; auto|].
  intros [H|H]; auto. destruct (IH H); auto.
Qed.
Lemma tidy_ctxs w w' : w_ctxs w' = w_ctxs w -> tidy w -> tidy w'.
Proof. intros E [F U]. split; [now apply (full_ctxs w)|]. intros c n d. unfold exists_ctx, ctx_at. rewrite E. apply U. Qed.
Lemma tidy_put_data a t : keeps tidy (put_data a t). Proof. intros w. now apply tidy_ctxs. Qed.
Lemma tidy_set_data a t : keeps tidy (set_data a t). Proof. intros w. now apply tidy_ctxs. Qed.
Lemma tidy_put w c x : tidy w -> map fst (x_params x) = map fst (x_priors x) -> (forall n d, In (n, d) (x_priors x) -> d_batched d = false) ->
  tidy (fst (put_ctx c x w)).
Proof.
  intros [F U] E V. split; [now apply full_put|]. intros c' n d H. apply exists_put in H. rewrite ctx_put. destruct (_ && _); [apply V|now apply U].
Qed.
Lemma tidy_ctx w c : tidy w -> forall n d, In (n, d) (x_priors (ctx_at w c)) -> d_batched d = false.
Proof.
  intros [F U] n d. destruct (Nat.lt_ge_cases c (List.length (w_ctxs w))) as [H|H]; [now apply U|]. unfold ctx_at. rewrite nth_overflow by exact H. easy.
Qed.
Lemma tidy_set_batch c s : keeps tidy (set_batch_shape c s).
Proof.
  intros w T. unfold set_batch_shape, abind, get_ctx. fold (ctx_at w c). destruct (x_batch (ctx_at w c)); [destruct list_eq_dec; exact T|].
  apply tidy_put; [exact T| |]; cbn; [apply full_ctx, T|now apply tidy_ctx].
Qed.
Lemma tidy_set_verify c s : keeps tidy (set_verify c s).
Proof. intros w T. unfold set_verify, abind, get_ctx. fold (ctx_at w c). apply tidy_put; [exact T| |]; cbn; [apply full_ctx, T|now apply tidy_ctx]. Qed.
Lemma tidy_new q : keeps tidy (new_ctx (empty_ctx q)).
Proof.
  intros w [F U]. split; [now apply full_new|]. intros c n d H. rewrite ctx_new. destruct (Nat.eqb_spec c (List.length (w_ctxs w))); [easy|].
  apply U. unfold exists_ctx in *. cbn in H. rewrite app_length in H. cbn in H. lia.
Qed.
Lemma tidy_copy_rows p rows : keeps tidy (copy_rows p rows).
Proof. unfold copy_rows. keeps_tac. apply tidy_put_data. Qed.
Lemma tidy_named sample c n d : d_batched d = false -> keeps tidy (named_parameter sample c n d).
Proof.
  intros B w [F U]. split; [now apply names_named|]. rewrite named_eq.
  destruct (x_batch (ctx_at w c)) as [b|] eqn:X; [|exact U].
  destruct (prior_at w c n) as [k|] eqn:K.
  - destruct (verifies w c); [destruct (equivalent_to k d) as [[|]|]|]; exact U.
  - pose proof (some_exists w c b X) as H. rewrite register_eq, B by exact H. intros c' m e. unfold exists_ctx, ctx_at. cbn. rewrite rep_len, rep_nth.
    intros H'. apply Nat.ltb_lt in H' as H2. rewrite H2, andb_true_r. destruct (Nat.eqb_spec c' c); [|now apply U]. subst. cbn. fold (ctx_at w c).
    intros I. apply od_set_in in I. destruct I as [->|I]; [exact B|]. now apply (U c m).
Qed.
#[global] Hint Resolve tidy_put_data tidy_set_data tidy_set_batch tidy_set_verify tidy_new tidy_copy_rows tidy_named : keeps.
Lemma tidy_update_values p rows b : keeps tidy (update_values p rows b).
Proof. unfold update_values. keeps_tac. Qed.
#[global] Hint Resolve tidy_update_values : keeps.
Lemma Forall2_in_r {A B} (R : A -> B -> Prop) l l' b : Forall2 R l l' -> In b l' -> exists a, In a l /\ R a b.
Proof. induction 1; cbn; [easy|]. intros [->|I]; eauto. destruct (IHForall2 I) as (z & ? & ?). eauto. Qed.
(** The rows of the table built by apply_fun. *)
Lemma temp_rows c x f w w' temp : collect (x_priors x) (fun kd =>
      do! p <- get_parameter c (fst kd) in
      do! t <- param_value p in
      match od_get (fst kd) (x_shapes x) with
      | None => raise KeyError
      | Some s => let t' := f t in
                  let sh := full_shape t' in
                  ret (firstn (List.length sh - List.length s) sh, fst kd, snd kd, t')
      end) w = (w', Ok temp) ->
  w' = w /\ Forall2 (fun kd q => exists p s, param_id w c (fst kd) = Some p /\ od_get (fst kd) (x_shapes x) = Some s /\
     q = (firstn (List.length (full_shape (f (value_at w p))) - List.length s) (full_shape (f (value_at w p))), fst kd, snd kd, f (value_at w p))) (x_priors x) temp.
Proof.
  generalize (x_priors x) as l. intros l. revert temp. induction l as [|kd l IH]; cbn [collect]; intros temp; [intros [= <- <-]; split; [reflexivity|constructor]|].
  unfold abind at 1. unfold get_parameter, param_value. unfold abind at 1 2, get_ctx. fold (ctx_at w c).
  fold (param_id w c (fst kd)). destruct (param_id w c (fst kd)) as [p|] eqn:P; [|discriminate].
  unfold ret at 1, abind at 1, abind at 1, get_obj, get_data. fold (value_at w p).
  destruct (od_get (fst kd) (x_shapes x)) as [s|] eqn:S; [|discriminate]. unfold ret at 1. unfold abind at 1.
  match goal with |- (let (_, _) := ?m in _) = _ -> _ => destruct m as [w2 [bs'|]] eqn:E2; [|discriminate] end.
  intros [= <- <-]. destruct (IH _ E2) as [-> F]. split; [reflexivity|]. constructor; [|exact F]. exists p, s. auto.
Qed.
Lemma tidy_copy sample c : keeps tidy (copy sample c).
Proof.
  unfold copy, apply_fun.
  apply (keeps_bind_res _ (fun x => forall n d, In (n, d) (x_priors x) -> d_batched d = false)); [keeps_tac| |].
  { intros w a w' T. unfold get_ctx. fold (ctx_at w c). intros [= _ <-]. now apply tidy_ctx. }
  intros x X. apply (keeps_bind_res _ (fun temp => forall b k d t, In (b, k, d, t) temp -> d_batched d = false)); [keeps_tac| |].
  { intros w temp w' T E. apply (temp_rows c x (fun t => t)) in E. destruct E as [_ F]. intros b k d t I.
    destruct (Forall2_in_r _ _ _ _ F I) as ([k' d'] & I' & p & s & _ & _ & Q). injection Q as _ -> -> _. now apply (X k'). }
  intros temp Y. destruct temp as [|[[[b k0] d0] t0] temp]; [keeps_tac|]. destruct forallb; [|keeps_tac].
  apply keeps_bind; [keeps_tac|]. intros new. apply keeps_bind; [keeps_tac|]. intros _. apply keeps_bind; [|keeps_tac].
  apply keeps_for_each. intros [[[b1 k1] d1] t1] I. apply keeps_bind; [|keeps_tac]. apply tidy_named. now apply (Y b1 k1 d1 t1).
Qed.
Lemma tidy_perform sample o : unbatched o -> keeps tidy (perform sample o).
Proof.
  intros N. destruct o; cbn [perform]; apply keeps_bind; try (intros; apply keeps_ret); auto with keeps.
  - unfold unstack_parameters. keeps_tac. apply keeps_apply. intros. auto with keeps.
  - unfold resample. keeps_tac.
  - unfold exchange. keeps_tac.
  - unfold load_state_dict. keeps_tac.
  - apply tidy_copy.
Qed.
Lemma tidy_empty : tidy no_world.
Proof. split; intros c; intros; exfalso; unfold exists_ctx in *; cbn in *; lia. Qed.
Lemma tidy_reach sample l : Forall unbatched l -> tidy (history sample l no_world).
Proof. intros U. apply keeps_history; [|apply tidy_empty]. intros o I. apply tidy_perform. rewrite Forall_forall in U. auto. Qed.
