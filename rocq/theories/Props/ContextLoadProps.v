(** Properties C47, C74, C75 (pyfilter/inference/context.py:291-321). *)
From Coq Require Import Reals Lra List Bool Arith String Lia.
From Verif.Model Require Import Base Xf Prior Context.
From Verif.Spec Require Import ContextSpec.
From Verif.Proofs Require Import ContextProofs ContextHeap.
From Verif.Props Require Import ContextProps ContextUpdateProps ContextStackingProps ContextCopyProps.
Import ListNotations.
Local Open Scope list_scope.
Local Open Scope nat_scope.

(** * Tables, also after loading *)
Record tabled (w : world) : Prop := Tabled {
  tb_keys : forall c, exists_ctx w c -> NoDup (names w c);
  tb_param : forall c n p, exists_ctx w c -> In (n, p) (x_params (ctx_at w c)) -> p < List.length (w_objs w) /\ po_ctx (obj_at w p) = c /\ po_name (obj_at w p) = n;
  tb_sub : sub w
}.
Lemma tabled_same w w' : w_ctxs w' = w_ctxs w -> List.length (w_objs w') = List.length (w_objs w) ->
  (forall p, po_ctx (obj_at w' p) = po_ctx (obj_at w p) /\ po_name (obj_at w' p) = po_name (obj_at w p)) -> tabled w -> tabled w'.
Proof.
  intros X L O [K P S]. constructor.
  - intros c. unfold exists_ctx, names, ctx_at. rewrite X. apply K.
  - intros c n p. unfold exists_ctx, ctx_at. rewrite X, L. destruct (O p) as [-> ->]. apply P.
  - intros c n. unfold exists_ctx, prior_at, param_id, ctx_at. rewrite X. apply S.
Qed.
Lemma tabled_put_data a t : keeps tabled (put_data a t). Proof. intros w. now apply tabled_same. Qed.
Lemma tabled_set_data p a : keeps tabled (set_data p a).
Proof.
  intros w. apply tabled_same; [reflexivity|cbn; apply rep_len|]. intros q. cbn. rewrite rep_nth.
  destruct (Nat.eqb_spec q p); [subst|auto]. destruct (_ <? _); auto.
Qed.
Lemma tabled_put w c x : tabled w -> x_params x = x_params (ctx_at w c) -> (forall n, od_get n (x_priors x) = None -> od_get n (x_params x) = None) -> tabled (fst (put_ctx c x w)).
Proof.
  intros [K P S] E F. constructor.
  - intros c' H. apply exists_put in H. unfold names. rewrite ctx_put. destruct (Nat.eqb_spec c' c); [subst|now apply K]. destruct (_ <? _); cbn; [rewrite E|]; now apply K.
  - intros c' n p H. apply exists_put in H. rewrite ctx_put. destruct (Nat.eqb_spec c' c); [subst|now apply P]. destruct (_ <? _); cbn [andb]; [rewrite E|]; now apply P.
  - intros c' n H. apply exists_put in H. unfold prior_at, param_id. rewrite ctx_put. destruct (Nat.eqb_spec c' c); [subst|now apply S]. destruct (_ <? _); cbn [andb]; [apply F|now apply S].
Qed.
Lemma tabled_set_batch c s : keeps tabled (set_batch_shape c s).
Proof.
  intros w T. rewrite set_batch_eq. destruct (batch_of w c); [exact T|]. apply tabled_put; auto. cbn. intros n. 
  destruct (Nat.lt_ge_cases c (List.length (w_ctxs w))) as [H|H]; [now apply (tb_sub w T)|]. unfold ctx_at. now rewrite nth_overflow.
Qed.
Lemma tabled_set_verify c b : keeps tabled (set_verify c b).
Proof.
  intros w T. unfold set_verify, abind, get_ctx. fold (ctx_at w c). apply tabled_put; auto. cbn. intros n.
  destruct (Nat.lt_ge_cases c (List.length (w_ctxs w))) as [H|H]; [now apply (tb_sub w T)|]. unfold ctx_at. now rewrite nth_overflow.
Qed.
Lemma tabled_new q : keeps tabled (new_ctx (empty_ctx q)).
Proof.
  intros w [K P S]. pose proof (ctx_new w (empty_ctx q)) as T. set (w' := fst (new_ctx _ w)) in *.
  assert (X : forall c, exists_ctx w' c -> c <> List.length (w_ctxs w) -> exists_ctx w c) by (unfold exists_ctx; cbn; intros c; rewrite app_length; cbn; lia).
  constructor.
  - intros c H. unfold names. rewrite T. destruct (Nat.eqb_spec c (List.length (w_ctxs w))); [constructor|]. apply K. auto.
  - intros c n p H. rewrite T. destruct (Nat.eqb_spec c (List.length (w_ctxs w))); [easy|]. apply P. auto.
  - apply (since_new_ctx w q w). split; [exact S|apply grows_refl].
Qed.
Lemma tabled_copy_rows p rows : keeps tabled (copy_rows p rows).
Proof. unfold copy_rows. keeps_tac. apply tabled_put_data. Qed.
#[local] Hint Resolve tabled_put_data tabled_set_data tabled_set_batch tabled_set_verify tabled_new tabled_copy_rows : keeps.
Lemma tabled_named sample c n d : keeps tabled (named_parameter sample c n d).
Proof.
  intros w T. assert (S' : sub (fst (named_parameter sample c n d w))) by (apply (since_named_parameter sample w c n d w); split; [apply T|apply grows_refl]).
  rewrite named_eq in *. destruct (x_batch (ctx_at w c)) as [b|] eqn:B; [|exact T]. pose proof (some_exists w c b B) as H.
  destruct (prior_at w c n) as [k|] eqn:K; [destruct (verifies w c); [destruct (equivalent_to k d) as [[|]|]|]; exact T|].
  assert (Q : od_get n (x_params (ctx_at w c)) = None) by now apply (tb_sub w T).
  rewrite register_eq in * by exact H. destruct T as [Y P S]. destruct (d_batched d); cbn [fst] in *.
  - apply (tabled_put w c (with_prior (ctx_at w c) n d)); [now constructor|reflexivity|]. cbn. intros m. rewrite od_get_set. destruct (String.eqb m n); [discriminate|]. now apply S.
  - set (w' := World _ _ _ _) in *.
    assert (T : forall c', exists_ctx w c' -> ctx_at w' c' = if c' =? c then with_param (ctx_at w c) n d (List.length (w_objs w)) else ctx_at w c').
    { intros c' H'. unfold ctx_at at 1. cbn. rewrite rep_nth. apply Nat.ltb_lt in H'. rewrite H'. now rewrite andb_true_r. }
    assert (T2 : forall c', exists_ctx w' c' -> exists_ctx w c') by (intros c'; unfold exists_ctx; cbn; now rewrite rep_len).
    constructor; [| |exact S'].
    + intros c' H'. apply T2 in H'. unfold names. rewrite T by exact H'. destruct (Nat.eqb_spec c' c); [subst|exact (Y c' H')]. cbn. rewrite od_set_keys_new by exact Q.
      apply nodup_snoc; [now apply Y|]. now apply od_get_none.
    + intros c' m p H' J. apply T2 in H'. rewrite T in J by exact H'. cbn [w' w_objs]. rewrite app_length. cbn [List.length].
      assert (Old : In (m, p) (x_params (ctx_at w c')) -> p < List.length (w_objs w) + 1 /\ po_ctx (obj_at w' p) = c' /\ po_name (obj_at w' p) = m).
      { intros J'. destruct (P c' m p H' J') as (P1 & P2 & P3). cbn [w' w_objs]. rewrite app_nth1 by exact P1. split; [lia|auto]. }
      destruct (Nat.eqb_spec c' c) as [->|N]; [|auto]. cbn [with_param x_params] in J. rewrite od_set_new in J by exact Q. apply in_app_or in J. destruct J as [J|[J|[]]]; [auto|].
      injection J as <- <-. rewrite app_nth_new. cbn. split; [lia|auto].
Qed.
#[local] Hint Resolve tabled_named : keeps.
Lemma tabled_update_values p rows b : keeps tabled (update_values p rows b).
Proof. unfold update_values. keeps_tac. Qed.
#[local] Hint Resolve tabled_update_values : keeps.
Lemma tabled_perform sample o : keeps tabled (perform sample o).
Proof.
  destruct o; cbn [perform]; apply keeps_bind; try (intros; apply keeps_ret); auto with keeps.
  - unfold unstack_parameters. keeps_tac. apply keeps_apply. intros. auto with keeps.
  - unfold resample. keeps_tac.
  - unfold exchange. keeps_tac.
  - unfold load_state_dict. keeps_tac.
  - unfold copy, apply_fun. keeps_tac. all: destruct a1 as [[[? ?] ?] ?]; keeps_tac.
Qed.
Lemma tabled_reach sample l : tabled (history sample l no_world).
Proof. apply keeps_history; [intros; apply tabled_perform|]. constructor; unfold exists_ctx; cbn; intros; try lia. apply sub_empty. Qed.
Lemma tabled_nodup w c : tabled w -> exists_ctx w c -> NoDup (map snd (x_params (ctx_at w c))).
Proof.
  intros T H. pose proof (tb_keys w T c H) as N. unfold names in N. revert N.
  assert (I : forall n p, In (n, p) (x_params (ctx_at w c)) -> po_name (obj_at w p) = n) by (intros n p I; now apply (tb_param w T c n p H)).
  induction (x_params (ctx_at w c)) as [|[n p] l IH]; cbn; [constructor|]. intros N. inversion N; subst. constructor.
  - intros J. apply in_map_iff in J. destruct J as ([m q] & E & J). cbn in E. subst q. apply H2.
    rewrite <- (I n p) by now left. rewrite (I m p) by now right. now apply (in_map fst) in J.
  - apply IH; auto. intros. apply I. now right.
Qed.

(** * Comparing arguments *)
Lemma xeqb_refl a : a <> NaN -> xeqb a a = true.
Proof. destruct a; cbn; try easy. now destruct (Req_EM_T r r). Qed.
Lemma xeqb_eq a b : xeqb a b = true -> a = b.
Proof. destruct a as [x| | |], b as [y| | |]; cbn; try easy. destruct (Req_EM_T x y); [now subst|discriminate]. Qed.
Lemma all_eq_refl v : no_nan v -> all_eq v v = Ok true.
Proof.
  intros N. unfold all_eq. assert (E : broadcast v v = Ok (combine v v)).
  { unfold broadcast. destruct v as [|a [|b v]]; try reflexivity. now rewrite Nat.eqb_refl. }
  rewrite E. cbn. f_equal. apply forallb_forall. intros [a b] I. assert (a = b /\ In a v) as [-> J].
  { clear -I. induction v as [|x v IH]; [easy|]. cbn in I. destruct I as [[= <- <-]|I]; [split; [reflexivity|now left]|]. destruct (IH I). split; [assumption|now right]. }
  cbn. apply xeqb_refl. unfold no_nan in N. rewrite Forall_forall in N. auto.
Qed.
Lemma combine_eq (x y : list xf) : List.length x = List.length y -> forallb (fun q => xeqb (fst q) (snd q)) (combine x y) = true -> x = y.
Proof.
  revert y. induction x as [|a x IH]; intros [|b y] L F; try discriminate; [reflexivity|]. cbn in F. apply andb_true_iff in F. destruct F as [F1 F2].
  apply xeqb_eq in F1. subst. f_equal. apply IH; auto.
Qed.
Lemma all_eq_sound v v' : List.length v = List.length v' -> all_eq v v' = Ok true -> v = v'.
Proof.
  intros L. unfold all_eq. assert (E : broadcast v v' = Ok (combine v v')).
  { unfold broadcast. destruct v as [|a [|b v]]; destruct v' as [|a' [|b' v']]; try discriminate; try reflexivity. rewrite (proj2 (Nat.eqb_eq _ _) L). reflexivity. }
  rewrite E. cbn. intros [= F]. now apply combine_eq.
Qed.

(** * Saving *)
Definition saved_of (w : world) (c : nat) : saved :=
  Saved (map (fun np : string * nat => (fst np, po_data (obj_at w (snd np)))) (x_params (ctx_at w c))) (map (fun nd : string * dist => (fst nd, d_args (snd nd))) (x_priors (ctx_at w c))).
Lemma state_dict_eq w c : state_dict c w = (w, Ok (saved_of w c)).
Proof.
  unfold state_dict. unfold abind at 1, get_ctx. fold (ctx_at w c). unfold abind at 1.
  rewrite (collect_pure _ (fun np : string * nat => (fst np, po_data (obj_at w (snd np))))) by reflexivity. reflexivity.
Qed.
Lemma od_get_map {A B} n (f : A -> B) (l : odict A) : od_get n (map (fun kv : string * A => (fst kv, f (snd kv))) l) = option_map f (od_get n l).
Proof. induction l as [|[k v] l IH]; cbn; [reflexivity|]. destruct (String.eqb n k); [reflexivity|exact IH]. Qed.

(** * Loading *)
Lemma keys_iff {A B} (a : odict A) (b : odict B) : same_keys a b = true <-> (forall n, In n (od_keys a) <-> In n (od_keys b)).
Proof.
  unfold same_keys. rewrite andb_true_iff, !forallb_forall.
  assert (M : forall C (d : odict C) k, od_mem k d = true <-> In k (od_keys d)).
  { intros C d k. unfold od_mem, od_keys. induction d as [|[k2 v] d IH]; cbn; [easy|]. destruct (String.eqb_spec k k2); [subst; cbn; tauto|]. rewrite <- IH. cbn. split; [auto|]. intros [E|E]; [congruence|exact E]. }
  split; [intros [A1 A2] n; split; intros I; apply M; auto|]. intros E. split; intros n I; apply M; now apply E.
Qed.
Section Load.
  Variables (w : world) (c : nat) (s : saved).
  Hypothesis T : tabled w.
  Hypothesis Td : tidy w.
  Hypothesis H : exists_ctx w c.
  Let check (kd : string * dist) : act unit := for_each (d_args (snd kd)) (fun na =>
          match od_get (fst kd) (sv_priors s) with
          | None => raise KeyError
          | Some args =>
              match od_get (fst na) args with
              | None => raise KeyError
              | Some v => do! eq <- lift (all_eq (snd na) v) in if eq then ret tt else raise AssertionError
              end
          end).
  Let body (kd : string * dist) : act unit :=
    do! _ <- check kd in
    do! p <- get_parameter c (fst kd) in
    match od_get (fst kd) (sv_params s) with None => raise KeyError | Some a => set_data p a end.
  Lemma load_eq : load_state_dict c s w = if same_keys (x_params (ctx_at w c)) (sv_params s) then for_each (x_priors (ctx_at w c)) body w else (w, Raise AssertionError).
  Proof. unfold load_state_dict. unfold abind at 1, get_ctx. fold (ctx_at w c). destruct same_keys; reflexivity. Qed.
  (** The part of the state already loaded. *)
  Record loaded (l1 : odict dist) (w1 : world) : Prop := Loaded {
    ld_data : w_data w1 = w_data w; ld_ctxs : w_ctxs w1 = w_ctxs w; ld_rnd : w_rnd w1 = w_rnd w; ld_len : List.length (w_objs w1) = List.length (w_objs w);
    ld_new : forall n p a, In n (map fst l1) -> param_id w c n = Some p -> od_get n (sv_params s) = Some a -> po_data (obj_at w1 p) = a;
    ld_old : forall q, (forall n, In n (map fst l1) -> param_id w c n <> Some q) -> obj_at w1 q = obj_at w q
  }.
  Lemma load_step l1 k d w1 p a : loaded l1 w1 -> ~ In k (map fst l1) -> param_id w c k = Some p -> od_get k (sv_params s) = Some a -> loaded (l1 ++ [(k, d)]) (fst (set_data p a w1)).
  Proof.
    intros [D X R L N O] K P A. pose proof (od_get_in _ _ _ P) as I. destruct (tb_param w T c k p H I) as (Lp & _ & _).
    assert (Inj : forall n q, param_id w c n = Some q -> q = p -> n = k).
    { intros n q E ->. apply od_get_in in E. destruct (tb_param w T c n p H E) as (_ & _ & <-). now destruct (tb_param w T c k p H I) as (_ & _ & <-). }
    assert (Ob : forall q, obj_at (fst (set_data p a w1)) q = if q =? p then PObj (po_ctx (obj_at w1 p)) (po_name (obj_at w1 p)) a else obj_at w1 q).
    { intros q. cbn. rewrite rep_nth. destruct (Nat.eqb_spec q p); [|reflexivity]. subst q. rewrite <- L in Lp. apply Nat.ltb_lt in Lp. now rewrite Lp. }
    constructor; cbn [set_data]; auto.
    - cbn. rewrite rep_len. exact L.
    - intros n q b J Q B. rewrite Ob. destruct (Nat.eqb_spec q p) as [E|E].
      + cbn. pose proof (Inj n q Q E). subst n. congruence.
      + rewrite map_app in J. apply in_app_or in J. destruct J as [J|[J|[]]]; [now apply (N n)|]. cbn in J. subst n. congruence.
    - intros q J. rewrite Ob. destruct (Nat.eqb_spec q p) as [E|E].
      + exfalso. subst q. apply (J k); [|exact P]. rewrite map_app. apply in_or_app. right. now left.
      + apply O. intros n M. apply J. rewrite map_app. apply in_or_app. now left.
  Qed.
  Lemma load_loop l2 : forall l1 w1, x_priors (ctx_at w c) = l1 ++ l2 -> loaded l1 w1 ->
    (forall kd w', In kd l2 -> check kd w' = (w', Ok tt)) -> (forall n, In n (map fst l2) -> In n (od_keys (sv_params s))) ->
    exists w2, for_each l2 body w1 = (w2, Ok tt) /\ loaded (l1 ++ l2) w2.
  Proof.
    induction l2 as [|[k d] l2 IH]; intros l1 w1 E I Ch K; [exists w1; rewrite app_nil_r; auto|].
    assert (ND : NoDup (map fst (x_priors (ctx_at w c)))).
    { pose proof (proj1 Td c H) as F. unfold names, priors in F. rewrite <- F. apply (tb_keys w T c H). }
    assert (Kn : ~ In k (map fst l1)).
    { rewrite E, map_app in ND. cbn in ND. apply NoDup_remove_2 in ND. intros J. apply ND. apply in_or_app. now left. }
    assert (P : exists p, param_id w c k = Some p).
    { apply od_get_some. fold (names w c). rewrite (proj1 Td c H). unfold priors. rewrite E, map_app. apply in_or_app. right. now left. }
    destruct P as [p P]. destruct (od_get_some k (sv_params s)) as [a A]; [apply K; now left|].
    assert (Bd : body (k, d) w1 = (fst (set_data p a w1), Ok tt)).
    { unfold body. unfold abind at 1. rewrite Ch by now left. cbn [fst]. unfold abind. rewrite (get_parameter_eq w1 c k p). 2:{ unfold param_id, ctx_at. rewrite (ld_ctxs _ _ I). exact P. }
      rewrite A. reflexivity. }
    cbn [for_each]. unfold abind. rewrite Bd. destruct (IH (l1 ++ [(k, d)]) (fst (set_data p a w1))) as (w3 & E3 & I3).
    - now rewrite <- app_assoc.
    - now apply load_step.
    - intros. apply Ch. now right.
    - intros. apply K. now right.
    - exists w3. rewrite E3. split; [reflexivity|]. now rewrite <- app_assoc in I3.
  Qed.
  Lemma check_ok : same_prior_arguments w c s -> forall kd w', In kd (x_priors (ctx_at w c)) -> check kd w' = (w', Ok tt).
  Proof.
    intros S [n d] w' I. unfold check. cbn [fst snd].
    assert (D : prior_at w c n = Some d).
    { apply od_in_get; [|exact I]. pose proof (proj1 Td c H) as F. unfold names, priors in F. rewrite <- F. apply (tb_keys w T c H). }
    rewrite (for_each_still _ _ (fun _ => true) KeyError); [replace (forallb (fun _ : string * list xf => true) (d_args d)) with true; [reflexivity|symmetry; now apply forallb_forall]|].
    intros [k v] J. cbn [fst snd]. destruct (S n d k v D J) as (N & args & E1 & E2). rewrite E1, E2. unfold abind, lift. now rewrite all_eq_refl by exact N.
  Qed.
  Lemma loaded_start : loaded [] w.
  Proof. constructor; auto. intros n p a []. Qed.
  Lemma loaded_value w2 : loaded (x_priors (ctx_at w c)) w2 -> forall n a, In n (names w c) -> od_get n (sv_params s) = Some a -> value w2 c n = Some (storage w a).
  Proof.
    intros I n a J A. destruct (od_get_some n (x_params (ctx_at w c)) J) as [p P]. unfold value, param_id, ctx_at. rewrite (ld_ctxs _ _ I). fold (ctx_at w c). rewrite P. cbn. f_equal.
    unfold value_at, storage. rewrite (ld_data _ _ I). f_equal. apply (ld_new _ _ I n p a); auto. rewrite <- (proj1 Td c H : names w c = map fst (x_priors (ctx_at w c))). exact J.
  Qed.
  Lemma loaded_other w2 : loaded (x_priors (ctx_at w c)) w2 -> forall c', exists_ctx w c' -> c' <> c -> same_context w w2 c'.
  Proof.
    intros I c' H' N. apply same_context_of.
    - split; [unfold exists_ctx; now rewrite (ld_ctxs _ _ I)|]. unfold ctx_at. now rewrite (ld_ctxs _ _ I).
    - intros p J. apply in_map_iff in J. destruct J as ([m q] & E & J). cbn in E. subst q. unfold value_at. rewrite (ld_data _ _ I). f_equal. f_equal. apply (ld_old _ _ I).
      intros n _ P. apply od_get_in in P. destruct (tb_param w T c n p H P) as (_ & E1 & _). destruct (tb_param w T c' m p H' J) as (_ & E2 & _). congruence.
  Qed.
End Load.

Lemma state_of sample l : Forall unbatched l -> tabled (history sample l no_world) /\ tidy (history sample l no_world).
Proof. intros U. split; [apply tabled_reach|now apply tidy_reach]. Qed.

(** * C47 *)
(** Loading a dictionary with the names of the context and the arguments of its priors is accepted and makes every
    parameter's value the saved one; other contexts stay as they are. *)
Theorem C47_load : forall sample l c s, Forall unbatched l -> let w := history sample l no_world in
  exists_ctx w c -> (forall n, In n (names w c) <-> In n (map fst (sv_params s))) -> same_prior_arguments w c s ->
  exists w', perform sample (OLoad c s) w = (w', Ok None) /\
    (forall n a, od_get n (sv_params s) = Some a -> value w' c n = Some (storage w a)) /\
    batch_of w' c = batch_of w c /\ names w' c = names w c /\ (forall n, prior_at w' c n = prior_at w c n) /\
    (forall c', exists_ctx w c' -> c' <> c -> same_context w w' c').
Proof.
  intros sample l c s U w H K S. destruct (state_of sample l U) as [T Td]. fold w in T, Td.
  destruct (load_loop w c s T Td H (x_priors (ctx_at w c)) [] w eq_refl (loaded_start w c s)) as (w' & E & I).
  - intros kd w1 J. now apply (check_ok w c s T Td H S).
  - intros n J. apply K. rewrite (proj1 Td c H). exact J.
  - cbn [app] in I. exists w'. cbn [perform]. unfold abind. rewrite load_eq. rewrite (proj2 (keys_iff (x_params (ctx_at w c)) (sv_params s)) K).
    match type of E with ?x = _ => match goal with |- context [for_each ?a ?b ?d] => change (for_each a b d) with x end end. rewrite E.
    split; [reflexivity|]. split; [|split; [|split; [|split]]].
    + intros n a A. apply (loaded_value w c s Td H w' I); [|exact A]. apply K. apply od_get_in in A. now apply (in_map fst) in A.
    + unfold batch_of, ctx_at. now rewrite (ld_ctxs _ _ _ _ _ I).
    + unfold names, ctx_at. now rewrite (ld_ctxs _ _ _ _ _ I).
    + unfold prior_at, ctx_at. intros. now rewrite (ld_ctxs _ _ _ _ _ I).
    + apply (loaded_other w c s T H w' I).
Qed.
Print Assumptions C47_load.

(** Saving one context and loading it into another with the same names and priors with the same arguments reproduces
    every value. *)
Theorem C47_save_load : forall sample l c1 c2, Forall unbatched l -> let w := history sample l no_world in
  exists_ctx w c1 -> exists_ctx w c2 -> (forall n, In n (names w c1) <-> In n (names w c2)) ->
  (forall n d1 d2, prior_at w c1 n = Some d1 -> prior_at w c2 n = Some d2 -> d_args d1 = d_args d2 /\ NoDup (map fst (d_args d1)) /\ Forall (fun kv => no_nan (snd kv)) (d_args d1)) ->
  exists s w', state_dict c1 w = (w, Ok s) /\ perform sample (OLoad c2 s) w = (w', Ok None) /\ forall n, value w' c2 n = value w c1 n.
Proof.
  intros sample l c1 c2 U w H1 H2 K A. destruct (state_of sample l U) as [T Td]. fold w in T, Td. exists (saved_of w c1).
  assert (Nm : map fst (sv_params (saved_of w c1)) = names w c1) by (cbn; now rewrite map_map).
  destruct (C47_load sample l c2 (saved_of w c1) U H2) as (w' & E & V & _ & N & _).
  - intros n. fold w. rewrite Nm. symmetry. apply K.
  - intros n d k v D J. fold w in D. assert (In n (priors w c2)) as I2 by (apply od_get_in in D; now apply (in_map fst) in D). rewrite <- (proj1 Td c2 H2) in I2. apply K in I2.
    rewrite (proj1 Td c1 H1) in I2. destruct (od_get_some n (x_priors (ctx_at w c1)) I2) as [d1 D1]. destruct (A n d1 d D1 D) as (E1 & E2 & E3). rewrite E1 in E2, E3.
    rewrite Forall_forall in E3. split; [exact (E3 (k, v) J)|]. exists (d_args d). cbn. rewrite (od_get_map n d_args). unfold prior_at in D1. rewrite D1. cbn. rewrite E1. split; [reflexivity|]. now apply od_in_get.
  - exists w'. split; [apply state_dict_eq|]. fold w in E. split; [exact E|]. intros n. destruct (in_dec string_dec n (names w c1)) as [I|I].
    + destruct (od_get_some n (x_params (ctx_at w c1)) I) as [p P]. rewrite (V n (po_data (obj_at w p))).
      * unfold value, param_id. rewrite P. reflexivity.
      * cbn. rewrite (od_get_map n (fun p => po_data (obj_at w p))), P. reflexivity.
    + assert (X1 : param_id w c1 n = None) by now apply od_get_none.
      assert (X2 : param_id w' c2 n = None) by (apply od_get_none; fold (names w' c2); rewrite N; intros J; apply I, K, J). unfold value. now rewrite X1, X2.
Qed.
Print Assumptions C47_save_load.

(** A dictionary with other names is refused, nothing changes. *)
Theorem C47_other_names : forall sample w c s, ~ (forall n, In n (names w c) <-> In n (map fst (sv_params s))) ->
  perform sample (OLoad c s) w = (w, Raise AssertionError).
Proof.
  intros sample w c s K. cbn [perform]. unfold abind. rewrite load_eq. destruct same_keys eqn:E; [|reflexivity]. exfalso. apply K. now apply keys_iff.
Qed.
Print Assumptions C47_other_names.

Lemma for_each_all {A} (l : list A) f w w' : for_each l f w = (w', Ok tt) -> forall a, In a l -> exists w1 w2, f a w1 = (w2, Ok tt).
Proof.
  revert w. induction l as [|b l IH]; intros w E a I; [easy|]. cbn in E. unfold abind in E. destruct (f b w) as [w1 [[]|e]] eqn:F; [|discriminate].
  destruct I as [->|I]; [eauto|]. now apply (IH w1 E).
Qed.
(** A dictionary with another value, of the same shape, for an argument of a prior is refused. *)
Theorem C47_other_arguments_partial : forall sample w c s n d k v args v', In (n, d) (x_priors (ctx_at w c)) -> In (k, v) (d_args d) ->
  od_get n (sv_priors s) = Some args -> od_get k args = Some v' -> List.length v' = List.length v -> v' <> v ->
  exists w' e, perform sample (OLoad c s) w = (w', Raise e).
Proof.
  intros sample w c s n d k v args v' I J E1 E2 L N. cbn [perform]. unfold abind. rewrite load_eq. destruct same_keys; [|eauto].
  match goal with |- context [for_each ?l ?f w] => destruct (for_each l f w) as [w' [[]|e]] eqn:F; [|eauto]; exfalso; destruct (for_each_all l f w w' F (n, d) I) as (w1 & w2 & G) end.
  unfold abind at 1 in G. cbn [fst snd] in G.
  match type of G with context [for_each ?l ?f w1] => destruct (for_each l f w1) as [w3 [[]|e]] eqn:F2; [|discriminate]; destruct (for_each_all l f w1 w3 F2 (k, v) J) as (w4 & w5 & G2) end.
  cbn [fst snd] in G2. rewrite E1, E2 in G2. unfold abind, lift in G2. destruct (all_eq v v') as [[|]|] eqn:Q; try discriminate.
  apply all_eq_sound in Q; [|now symmetry]. now symmetry in Q.
Qed.
Print Assumptions C47_other_arguments_partial.

(** The claim fails for priors of classes without [arg_constraints], such as [Independent]: nothing of the prior is
    compared, so a dictionary saved with any other prior is accepted. *)
Theorem C47_hidden_arguments_refuted : forall sample l c s, Forall unbatched l -> let w := history sample l no_world in
  exists_ctx w c -> (forall n, In n (names w c) <-> In n (map fst (sv_params s))) -> (forall n d, prior_at w c n = Some d -> d_args d = []) ->
  snd (perform sample (OLoad c s) w) = Ok None.
Proof.
  intros sample l c s U w H K A. destruct (C47_load sample l c s U H K) as (w' & E & _); [|unfold w; now rewrite E].
  intros n d k v D J. fold w in D. rewrite (A n d D) in J. destruct J.
Qed.
Print Assumptions C47_hidden_arguments_refuted.

(** * C74 *)
(** The loaded parameters use the storages of the dictionary, which are those of the context it was made from: a later
    in-place update of the loaded context changes the other one as well. *)
Theorem C74_refuted : let w := history numbered two_alike no_world in exists s w1 w2,
  state_dict 1 w = (w, Ok s) /\ perform numbered (OLoad 0 s) w = (w1, Ok None) /\ perform numbered (OResample 0 [1; 1]) w1 = (w2, Ok None) /\
  entry w1 1 "a" 0 = Some [Fin (INR 0)] /\ entry w2 1 "a" 0 = Some [Fin (INR 10)].
Proof.
  intros w. unfold w. clear w. eexists. eexists. eexists. split; [cbv -[INR IZR]; reflexivity|]. split.
  - cbv -[INR IZR Req_EM_T]. destruct (Req_EM_T 0 0) as [_|N]; [|exfalso; now apply N]. destruct (Req_EM_T 1 1) as [_|N]; [|exfalso; now apply N]. reflexivity.
  - split; [cbv -[INR IZR]; reflexivity|]. split; cbv -[INR IZR]; reflexivity.
Qed.
Print Assumptions C74_refuted.

(** * C75 *)
(** A refused load is not without effect: priors are compared and parameters replaced one after the other. *)
Definition shifted_prior : dist := Dist "Normal" [("loc"%string, [Fin 1]); ("scale"%string, [Fin 1])] 0 false [] [] (fun _ => true) (fun x => x) (fun x => x) (fun _ => Fin 0) (fun _ => Fin 0).
Definition second_differs : list op :=
  [ONew None; OShape 0 [2]; ORegister 0 "a" normal_prior; ORegister 0 "b" normal_prior;
   ONew None; OShape 1 [2]; ORegister 1 "a" normal_prior; ORegister 1 "b" shifted_prior; OResample 1 [1; 1]].
Theorem C75_refuted : let w := history numbered second_differs no_world in exists s w1,
  state_dict 1 w = (w, Ok s) /\ perform numbered (OLoad 0 s) w = (w1, Raise AssertionError) /\
  entry w 0 "a" 0 = Some [Fin (INR 0)] /\ entry w1 0 "a" 0 = Some [Fin (INR 10)].
Proof.
  intros w. unfold w. clear w. eexists. eexists. split; [cbv -[INR IZR]; reflexivity|]. split.
  - cbv -[INR IZR Req_EM_T]. destruct (Req_EM_T 0 1) as [N|_]; [exfalso; apply R1_neq_R0; now symmetry|]. destruct (Req_EM_T 0 0) as [_|N]; [|exfalso; now apply N]. destruct (Req_EM_T 1 1) as [_|N]; [|exfalso; now apply N]. reflexivity.
  - split; cbv -[INR IZR]; reflexivity.
Qed.
Print Assumptions C75_refuted.

(** Two priors of a class without [arg_constraints] with different densities: the saved parameters of one are accepted by
    the context of the other. *)
Definition wrapped (level : R) : dist := Dist "Independent" [] 0 false [2] [2] (fun _ => true) (fun x => x) (fun x => x) (fun _ => Fin level) (fun _ => Fin level).
Theorem C47_hidden_witness_refuted : let w := history numbered [ONew None; OShape 0 [2]; ORegister 0 "a" (wrapped 1); ONew None; OShape 1 [2]; ORegister 1 "a" (wrapped 2)] no_world in
  (forall x, d_logp (wrapped 1) x <> d_logp (wrapped 2) x) /\
  exists s w1, state_dict 1 w = (w, Ok s) /\ perform numbered (OLoad 0 s) w = (w1, Ok None).
Proof.
  intros w. split; [intros x E; cbn in E; injection E as E; lra|]. unfold w. clear w. eexists. eexists. split; [cbv -[INR IZR]; reflexivity|]. cbv -[INR IZR]. reflexivity.
Qed.

(** * The hypotheses of C47 can be met *)
Example C47_nonvacuous : let w := history numbered (two_alike ++ [OResample 1 [1; 1]]) no_world in
  Forall unbatched (two_alike ++ [OResample 1 [1; 1]]) /\ exists_ctx w 0 /\ exists_ctx w 1 /\ names w 1 <> names w 0 /\
  (forall n, In n (names w 1) <-> In n (names w 0)) /\
  (forall n d1 d2, prior_at w 1 n = Some d1 -> prior_at w 0 n = Some d2 -> d_args d1 = d_args d2 /\ NoDup (map fst (d_args d1)) /\ Forall (fun kv => no_nan (snd kv)) (d_args d1)) /\
  entry w 1 "a" 0 = Some [Fin (INR 10)] /\ entry w 0 "a" 0 = Some [Fin (INR 0)].
Proof.
  intros w. split; [repeat constructor|]. split; [cbv; lia|]. split; [cbv; lia|].
  assert (N1 : names w 1 = ["s"%string; "a"%string]) by (cbv -[INR IZR]; reflexivity). assert (N0 : names w 0 = ["a"%string; "s"%string]) by (cbv -[INR IZR]; reflexivity).
  assert (P1 : x_priors (ctx_at w 1) = [("s"%string, simplex_prior); ("a"%string, normal_prior)]) by (cbv -[INR IZR]; reflexivity).
  assert (P0 : x_priors (ctx_at w 0) = [("a"%string, normal_prior); ("s"%string, simplex_prior)]) by (cbv -[INR IZR]; reflexivity).
  assert (E : entry w 1 "a" 0 = Some [Fin (INR 10)] /\ entry w 0 "a" 0 = Some [Fin (INR 0)]) by (split; cbv -[INR IZR]; reflexivity).
  clearbody w. split; [rewrite N0, N1; discriminate|]. split; [rewrite N0, N1; cbn; tauto|]. split; [|exact E].
  unfold prior_at. rewrite P1, P0. intros n d1 d2 D1 D2. cbn in D1, D2.
  destruct (String.eqb n "s") eqn:Es.
  - apply String.eqb_eq in Es. subst n. injection D1 as <-. injection D2 as <-. split; [reflexivity|]. split; [repeat constructor; cbn; tauto|]. repeat constructor; discriminate.
  - destruct (String.eqb n "a") eqn:Ea; [|discriminate]. injection D1 as <-. injection D2 as <-.
    split; [reflexivity|]. split; [repeat constructor; cbn; try tauto; intros [F|[]]; discriminate|]. repeat constructor; discriminate.
Qed.
