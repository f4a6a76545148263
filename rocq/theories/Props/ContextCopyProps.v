(** Property C48 (pyfilter/inference/context.py:323-358). *)
From Coq Require Import Reals List Bool Arith String Lia.
From Verif.Model Require Import Base Xf Prior Context.
From Verif.Spec Require Import ContextSpec.
From Verif.Proofs Require Import ContextProofs ContextHeap.
From Verif.Props Require Import ContextProps ContextUpdateProps ContextStackingProps.
Import ListNotations.
Local Open Scope list_scope.
Local Open Scope nat_scope.

(** * Operations on other contexts *)
Record apart (c c' : nat) (ids : list nat) (w0 w : world) : Prop := Apart {
  ap_co : coherent w;
  ap_sub : sub w;
  ap_ctx : ctx_is c (ctx_at w0 c) w;
  ap_val : forall p, In p (map snd (x_params (ctx_at w0 c))) -> value_at w p = value_at w0 p;
  ap_ids : forall p, In p ids -> p < List.length (w_objs w) /\ po_ctx (obj_at w p) = c'
}.
Lemma apart_mine c c' ids w0 w p : apart c c' ids w0 w -> In p (map snd (x_params (ctx_at w0 c))) -> p < List.length (w_objs w) /\ po_ctx (obj_at w p) = c.
Proof.
  intros [C _ [H E] _ _] I. apply in_map_iff in I. destruct I as ([n q] & Eq & I). cbn in Eq. subst q. rewrite <- E in I. now destruct (co_param w C c n p H I) as (A & B & _).
Qed.
Lemma apart_copy_at c c' ids w0 w p rows : c' <> c -> apart c c' ids w0 w -> p < List.length (w_objs w) -> po_ctx (obj_at w p) <> c -> apart c c' ids w0 (fst (copy_rows p rows w)).
Proof.
  intros N A L D. pose proof (apart_mine _ _ _ _ _ p A) as M. destruct A as [C S X V I]. constructor.
  - now apply co_copy_rows.
  - apply (since_copy_rows w p rows w). split; [exact S|apply grows_refl].
  - now apply is_copy_rows.
  - intros q J. rewrite <- (V q J). rewrite copy_rows_eq. destruct (_ && _); [|reflexivity]. cbn [fst].
    assert (Lq : q < List.length (w_objs w)).
    { apply in_map_iff in J. destruct J as ([n q'] & Eq & J). cbn in Eq. subst q'. destruct X as [H E]. rewrite <- E in J. now apply (co_param w C c n q). }
    rewrite upd_value by assumption. destruct (Nat.eqb_spec q p); [|reflexivity]. subst q. exfalso. apply D. now apply M.
  - intros q J. rewrite copy_rows_eq. destruct (_ && _); cbn; now apply I.
Qed.
Lemma apart_copy_rows c c' ids w0 p rows : c' <> c -> In p ids -> keeps (apart c c' ids w0) (copy_rows p rows).
Proof. intros N I w A. destruct (ap_ids _ _ _ _ _ A p I) as [L E]. apply apart_copy_at; auto. congruence. Qed.
Lemma apart_update c c' ids w0 p rows b : c' <> c -> In p ids -> keeps (apart c c' ids w0) (update_values p rows b).
Proof. intros N I. unfold update_values. pose proof (fun rows => apart_copy_rows c c' ids w0 p rows N I). keeps_tac. Qed.

Section Sampler.
  Variable sample : nat -> dist -> nat -> list (list xf).
  Hypothesis good : sampler_ok sample.
  Lemma named_objects c n d w p : coherent w -> p < List.length (w_objs w) -> let w' := fst (named_parameter sample c n d w) in
    p < List.length (w_objs w') /\ obj_at w' p = obj_at w p /\ value_at w' p = value_at w p.
  Proof.
    intros C L. rewrite named_eq. destruct (x_batch (ctx_at w c)) as [b|] eqn:B; [|cbn; auto].
    destruct (prior_at w c n) as [k|]; [destruct (verifies w c); [destruct (equivalent_to k d) as [[|]|]|]; cbn; auto|].
    rewrite register_eq by now apply (some_exists w c b). destruct (d_batched d); [cbn; auto|]. cbn. rewrite app_length. cbn. split; [lia|].
    unfold value_at. cbn. rewrite app_nth1 by exact L. split; [reflexivity|]. apply app_nth1. now apply (co_obj w C).
  Qed.
  Lemma apart_named c c' ids w0 m n d : m <> c -> keeps (apart c c' ids w0) (named_parameter sample m n d).
  Proof.
    intros N w A. pose proof (fun p => apart_mine _ _ _ _ _ p A) as M'.
    destruct A as [C S X V I]. constructor.
    - now apply co_named.
    - apply (since_named_parameter sample w m n d w). split; [exact S|apply grows_refl].
    - now apply is_named_parameter.
    - intros p J. rewrite <- (V p J). apply named_objects; [exact C|]. now apply M'.
    - intros p J. destruct (I p J) as [L E]. destruct (named_objects m n d w p C L) as (A1 & A2 & _). rewrite A2. auto.
  Qed.
  Lemma apart_fill c c' ids w0 m n d rows : m <> c -> c' <> c -> keeps (apart c c' ids w0) (do! p <- named_parameter sample m n d in copy_rows p rows).
  Proof.
    intros N N' w A. unfold abind. pose proof (apart_named c c' ids w0 m n d N w A) as A'. destruct (named_parameter sample m n d w) as [w' [p|e]] eqn:E; [|exact A'].
    cbn [fst] in A'. destruct (registered sample m n d w w' p (ap_sub _ _ _ _ _ A) E) as (H & P & _). apply od_get_in in P.
    destruct (co_param w' (ap_co _ _ _ _ _ A') m n p H P) as (L & O & _). apply apart_copy_at; auto. congruence.
  Qed.
  Lemma apart_copy c c1 w m : c1 <> c -> keeps (apart c c1 [] w) (copy sample m).
  Proof.
    intros D.
    unfold copy, apply_fun. apply keeps_bind; [keeps_tac|]. intros x. apply keeps_bind; [keeps_tac|]. intros temp0. destruct temp0 as [|[[[b k0] d0] t0] temp]; [keeps_tac|]. destruct forallb; [|keeps_tac].
    apply (keeps_bind_res _ (fun new => new <> c)).
    + intros w1 [B1 B2 B3 B4 B5]. constructor; auto.
      * now apply co_new_ctx.
      * apply (since_new_ctx w1 _ w1). split; [exact B2|apply grows_refl].
      * now apply is_new_ctx.
    + intros w1 a0 w2 [_ _ [B _] _ _]. unfold new_ctx. intros [= _ <-]. unfold exists_ctx in B. lia.
    + intros new N. apply keeps_bind; [|intros _; apply keeps_bind; [|keeps_tac]].
      * intros w1 [B1 B2 B3 B4 B5]. constructor.
        -- now apply co_set_batch.
        -- apply (since_set_batch_shape w1 _ _ w1). split; [exact B2|apply grows_refl].
        -- now apply is_set_batch_shape.
        -- intros p I. rewrite <- (B4 p I). unfold set_batch_shape, abind, get_ctx. destruct (x_batch _); [destruct list_eq_dec|]; reflexivity.
        -- easy.
      * apply keeps_for_each. intros [[[? ?] ?] ?] _. apply apart_fill; [exact N|exact D].
  Qed.
  Lemma apart_step w c o : coherent w -> sub w -> exists_ctx w c -> no_load o -> target o <> Some c ->
    coherent (fst (perform sample o w)) /\ sub (fst (perform sample o w)) /\ ctx_is c (ctx_at w c) (fst (perform sample o w)) /\
    forall p, In p (map snd (x_params (ctx_at w c))) -> value_at (fst (perform sample o w)) p = value_at w p.
  Proof.
    intros C S H L T.
    assert (A0 : forall c', (forall p, In p [] -> p < List.length (w_objs w) /\ po_ctx (obj_at w p) = c') -> apart c c' [] w w).
    { intros c' K. constructor; auto. now split. }
    assert (A1 : forall c', exists_ctx w c' -> apart c c' (map snd (x_params (ctx_at w c'))) w w).
    { intros c' H'. constructor; auto; [now split|]. intros p I. apply in_map_iff in I. destruct I as ([n q] & Eq & I). cbn in Eq. subst q. now destruct (co_param w C c' n p H' I) as (A & B & _). }
    assert (A2 : forall c', c' <> c -> ~ exists_ctx w c' -> x_params (ctx_at w c') = []).
    { intros c' N' H'. unfold ctx_at. rewrite nth_overflow; [reflexivity|]. unfold exists_ctx in H'. lia. }
    assert (A3 : forall c', apart c c' (map snd (x_params (ctx_at w c'))) w w \/ x_params (ctx_at w c') = []).
    { intros c'. destruct (Nat.lt_ge_cases c' (List.length (w_ctxs w))) as [H'|H']; [left; now apply A1|]. right. unfold ctx_at. now rewrite nth_overflow. }
    assert (Fin : forall c' ids w', apart c c' ids w w' -> coherent w' /\ sub w' /\ ctx_is c (ctx_at w c) w' /\
      forall p, In p (map snd (x_params (ctx_at w c))) -> value_at w' p = value_at w p).
    { intros c' ids w' [B1 B2 B3 B4 _]. auto. }
    assert (Bind : forall A (m : act A) (f : A -> act (option nat)), (forall a w', f a w' = (w', snd (f a w'))) -> fst ((do! x <- m in f x) w) = fst (m w)).
    { intros A m f K. unfold abind. destruct (m w) as [w' [a|e]]; [|reflexivity]. rewrite K. reflexivity. }
    assert (Same : forall w', (forall p, In p (map snd (x_params (ctx_at w c))) -> value_at w' p = value_at w p) -> coherent w' -> sub w' -> ctx_is c (ctx_at w c) w' ->
       coherent w' /\ sub w' /\ ctx_is c (ctx_at w c) w' /\ forall p, In p (map snd (x_params (ctx_at w c))) -> value_at w' p = value_at w p) by auto.
    assert (Tab : retables o <> Some c) by (destruct o; cbn in *; congruence).
    pose proof (co_perform sample good o L w C) as K1.
    assert (K2 : sub (fst (perform sample o w))) by (apply (since_perform sample w o w); split; [exact S|apply grows_refl]).
    pose proof (is_perform sample c (ctx_at w c) o Tab w (conj H eq_refl)) as K3.
    apply Same; auto. clear Same.
    destruct o as [q|c' s|c' n d|c' k x b|c' idx|c' other mask|c' s|c'|c' b]; cbn [perform target] in *; rewrite Bind by reflexivity.
    - reflexivity.
    - intros p _. unfold set_batch_shape, abind, get_ctx. destruct (x_batch _); [destruct list_eq_dec|]; reflexivity.
    - assert (N : c' <> c) by congruence. pose proof (apart_named c c' [] w c' n d N w (A0 c' ltac:(easy))) as Z. apply (Fin _ _ _ Z).
    - assert (N : c' <> c) by congruence. destruct (A3 c') as [Z|Z].
      + enough (Y : apart c c' (map snd (x_params (ctx_at w c'))) w (fst (unstack_parameters c' k x b w))) by apply (Fin _ _ _ Y).
        unfold unstack_parameters, abind, get_ctx. fold (ctx_at w c'). destruct (_ =? k); [|exact Z]. apply keeps_apply; [|exact Z]. intros p rows I. now apply apart_update.
      + unfold unstack_parameters, abind, get_ctx. fold (ctx_at w c'). rewrite Z. destruct (_ =? k); reflexivity.
    - assert (N : c' <> c) by congruence. destruct (A3 c') as [Z|Z].
      + enough (Y : apart c c' (map snd (x_params (ctx_at w c'))) w (fst (resample c' idx w))) by apply (Fin _ _ _ Y).
        unfold resample. unfold abind at 1, get_ctx. fold (ctx_at w c'). revert Z. apply keeps_for_each. intros [n p] I. apply (in_map snd) in I. pose proof (fun rows => apart_copy_rows c c' _ w p rows N I). keeps_tac.
      + unfold resample. unfold abind at 1, get_ctx. fold (ctx_at w c'). rewrite Z. reflexivity.
    - assert (N : c' <> c) by congruence. destruct (A3 c') as [Z|Z].
      + enough (Y : apart c c' (map snd (x_params (ctx_at w c'))) w (fst (exchange c' other mask w))) by apply (Fin _ _ _ Y).
        unfold exchange. unfold abind at 1, get_ctx. fold (ctx_at w c'). revert Z. apply keeps_for_each. intros [n p] I. apply (in_map snd) in I. pose proof (fun rows => apart_copy_rows c c' _ w p rows N I). keeps_tac.
      + unfold exchange. unfold abind at 1, get_ctx. fold (ctx_at w c'). rewrite Z. reflexivity.
    - easy.
    - enough (Y : apart c (Datatypes.S c) [] w (fst (copy sample c' w))) by apply (Fin _ _ _ Y). apply apart_copy; [lia|]. now apply A0.
    - reflexivity.
  Qed.
End Sampler.

Lemma same_context_of w w' c : ctx_is c (ctx_at w c) w' -> (forall p, In p (map snd (x_params (ctx_at w c))) -> value_at w' p = value_at w p) -> same_context w w' c.
Proof.
  intros [H E] V. unfold same_context, batch_of, names, priors, verifies, param_id, prior_at, value, param_id. rewrite E. do 4 (split; [reflexivity|]).
  intros n. split; [reflexivity|]. split; [reflexivity|]. destruct (od_get n (x_params (ctx_at w c))) as [p|] eqn:G; [|reflexivity]. cbn. f_equal. apply V.
  apply od_get_in in G. now apply (in_map snd) in G.
Qed.
Lemma same_context_trans u v w c : same_context u v c -> same_context v w c -> same_context u w c.
Proof.
  intros (A1 & A2 & A3 & A4 & A5) (B1 & B2 & B3 & B4 & B5). repeat (split; [congruence|]). intros n. destruct (A5 n) as (X & Y & Z), (B5 n) as (X' & Y' & Z').
  repeat split; congruence.
Qed.
Lemma reached_sub sample w : reached sample w -> sub w.
Proof. intros (_ & l & _ & ->). apply sub_reach. Qed.

(** * C48 *)
(** Nothing observable of a context changes by calls made on other contexts, among them its copies and the contexts it was
    copied from. *)
Theorem C48_independent : forall sample w c l, reached sample w -> exists_ctx w c -> Forall no_load l -> Forall (fun o => target o <> Some c) l ->
  same_context w (history sample l w) c.
Proof.
  intros sample w c l R H L T. revert w R H. induction l as [|o l IH]; intros w R H; [cbn; unfold same_context; repeat split|].
  inversion L; inversion T; subst. rewrite history_cons. pose proof (reached_coherent _ _ R) as C. destruct R as [S R].
  destruct (apart_step sample S w c o C (reached_sub sample w (conj S R)) H) as (_ & _ & X & V); auto.
  apply (same_context_trans w (fst (perform sample o w))); [exact (same_context_of _ _ _ X V)|]. apply IH; auto; [|apply X]. apply reached_step; [now split|assumption].
Qed.
Print Assumptions C48_independent.

Lemma get_parameter_eq w c n q : param_id w c n = Some q -> get_parameter c n w = (w, Ok q).
Proof. intros Q. unfold get_parameter, abind, get_ctx. fold (ctx_at w c). unfold param_id in Q. now rewrite Q. Qed.
Section Copy.
  Variable sample : nat -> dist -> nat -> list (list xf).
  Hypothesis good : sampler_ok sample.
  Variable (w : world) (c : nat).
  Hypothesis C : coherent w.
  Hypothesis T : tidy w.
  Hypothesis H : exists_ctx w c.
  Variable b : list nat.
  Let item (kd : string * dist) : list nat * string * dist * tensor :=
    (b, fst kd, snd kd, match param_id w c (fst kd) with Some p => value_at w p | None => no_tensor end).
  Let fill new (q : list nat * string * dist * tensor) : act unit := let '(_, k, d, t') := q in do! p <- named_parameter sample new k d in copy_rows p (t_rows t').
  Record copied (new : nat) (l1 : odict dist) (w1 : world) : Prop := Copied {
    cp_co : coherent w1; cp_sub : sub w1; cp_ex : exists_ctx w1 new; cp_batch : batch_of w1 new = Some b; cp_ver : verifies w1 new = true;
    cp_priors : x_priors (ctx_at w1 new) = l1; cp_names : names w1 new = map fst l1;
    cp_val : forall n, In n (map fst l1) -> value w1 new n = value w c n
  }.
  Hypothesis B : batch_of w c = Some b.
  Lemma copy_step new l1 k d l2 w1 : x_priors (ctx_at w c) = l1 ++ (k, d) :: l2 -> copied new l1 w1 ->
    exists w2, fill new (item (k, d)) w1 = (w2, Ok tt) /\ copied new (l1 ++ [(k, d)]) w2.
  Proof.
    intros E I.
    assert (ND : NoDup (map fst (x_priors (ctx_at w c)))).
    { pose proof (proj1 T c H) as F. unfold names, priors in F. rewrite <- F. apply (co_keys w C c H). }
    assert (K : ~ In k (map fst l1)).
    { rewrite E, map_app in ND. cbn in ND. apply NoDup_remove_2 in ND. intros J. apply ND. apply in_or_app. now left. }
    assert (J : In (k, d) (x_priors (ctx_at w c))) by (rewrite E; apply in_or_app; right; now left).
    assert (U : d_batched d = false) by now apply (proj2 T c k d H).
    assert (D : prior_at w c k = Some d) by now apply od_in_get.
    assert (Q : exists q, In (k, q) (x_params (ctx_at w c))).
    { apply names_params. rewrite (proj1 T c H). unfold priors. now apply (in_map fst) in J. }
    destruct Q as [q Q]. destruct (co_param w C c k q H Q) as (_ & _ & _ & d0 & b0 & D0 & B0 & _ & _ & G1 & G2 & G3 & G4).
    assert (Ed : d0 = d) by congruence. assert (Eb : b0 = b) by congruence. rewrite Ed in G2, G4. rewrite Eb in G1, G3. clear Ed Eb D0 B0 d0 b0. apply param_in in Q; auto.
    destruct I as [C1 S1 X1 B1 V1 P1 N1 W1].
    assert (O : prior_at w1 new k = None) by (unfold prior_at; rewrite P1; now apply od_get_none).
    assert (O2 : od_get k (x_params (ctx_at w1 new)) = None) by (apply od_get_none; fold (names w1 new); now rewrite N1).
    assert (NP : named_parameter sample new k d w1 = register sample new k d b w1).
    { rewrite named_eq. unfold batch_of in B1. now rewrite B1, O. }
    pose proof (co_named sample good new k d w1 C1) as C2. pose proof (named_objects sample new k d w1) as NO. unfold fill, item. cbn [fst snd]. unfold abind.
    assert (S2 : sub (fst (named_parameter sample new k d w1))) by (apply (since_named_parameter sample w1 new k d w1); split; [exact S1|apply grows_refl]).
    rewrite NP in *. rewrite register_eq in * by exact X1. rewrite U in *. cbn [fst] in C2, S2, NO.
    set (w2 := World _ _ _ _) in *. set (p := List.length (w_objs w1)) in *.
    assert (Lp : p < List.length (w_objs w2)) by (cbn; rewrite app_length; cbn; unfold p; lia).
    assert (X2 : exists_ctx w2 new) by (unfold exists_ctx; cbn; now rewrite rep_len).
    assert (A2 : ctx_at w2 new = with_param (ctx_at w1 new) k d p).
    { unfold ctx_at at 1. cbn. rewrite rep_nth, Nat.eqb_refl. apply Nat.ltb_lt in X1. now rewrite X1. }
    assert (Ip : In (k, p) (x_params (ctx_at w2 new))).
    { rewrite A2. cbn. rewrite od_set_new by exact O2. apply in_or_app. right. now left. }
    assert (Dp : prior_at w2 new k = Some d) by (unfold prior_at; rewrite A2; cbn; rewrite od_get_set, String.eqb_refl; reflexivity).
    assert (Bp : batch_of w2 new = Some b) by (unfold batch_of; rewrite A2; cbn; exact B1).
    destruct (co_param w2 C2 new k p X2 Ip) as (_ & _ & _ & d0 & b0 & D0' & B0' & _ & _ & F1 & F2 & F3 & F4).
    assert (Ed : d0 = d) by congruence. assert (Eb : b0 = b) by congruence. rewrite Ed in F2, F4. rewrite Eb in F1, F3. clear Ed Eb D0' B0' d0 b0.
    rewrite Q, copy_rows_eq. rewrite F2, F3. rewrite fits_check by assumption. eexists. split; [reflexivity|].
    pose proof (co_copy_rows p (t_rows (value_at w q)) w2 C2) as C3. rewrite copy_rows_eq, F2, F3, fits_check in C3 by assumption. cbn [fst] in C3.
    assert (Cx : forall n, ctx_at (upd w2 p (t_rows (value_at w q))) n = ctx_at w2 n) by reflexivity.
    assert (Vp : value_at (upd w2 p (t_rows (value_at w q))) p = value_at w q).
    { rewrite upd_value by assumption. rewrite Nat.eqb_refl, F1, F2, <- G1, <- G2. now destruct (value_at w q). }
    constructor; auto.
    - unfold verifies. rewrite Cx, A2. exact V1.
    - rewrite Cx, A2. cbn. rewrite P1. apply od_set_new. now apply od_get_none.
    - unfold names. rewrite Cx, A2. cbn. rewrite od_set_keys_new by exact O2. rewrite map_app. cbn. f_equal. exact N1.
    - intros n M. unfold value at 1, param_id at 1. rewrite Cx, A2. cbn [with_param x_params]. rewrite od_get_set. destruct (String.eqb_spec n k).
      + subst n. cbn [option_map]. rewrite Vp. unfold value. now rewrite Q.
      + rewrite map_app in M. apply in_app_or in M. destruct M as [M|[M|[]]]; [|cbn in M; congruence]. rewrite <- (W1 n M). unfold value, param_id.
        destruct (od_get n (x_params (ctx_at w1 new))) as [r|] eqn:G; [|reflexivity]. cbn [option_map]. f_equal. apply od_get_in in G.
        destruct (co_param w1 C1 new n r X1 G) as (Lr & _). destruct (NO r C1 Lr) as (Lr2 & _ & Vr). rewrite upd_value by assumption.
        destruct (Nat.eqb_spec r p); [unfold p in *; lia|exact Vr].
  Qed.
  Lemma copy_loop new l2 : forall l1 w1, x_priors (ctx_at w c) = l1 ++ l2 -> copied new l1 w1 ->
    exists w2, for_each (map item l2) (fill new) w1 = (w2, Ok tt) /\ copied new (l1 ++ l2) w2.
  Proof.
    induction l2 as [|[k d] l2 IH]; intros l1 w1 E I; [exists w1; rewrite app_nil_r; auto|]. cbn [map for_each]. unfold abind.
    destruct (copy_step new l1 k d l2 w1 E I) as (w2 & E2 & I2). rewrite E2. destruct (IH (l1 ++ [(k, d)]) w2) as (w3 & E3 & I3); [now rewrite <- app_assoc|exact I2|].
    exists w3. rewrite E3. split; [reflexivity|]. now rewrite <- app_assoc in I3.
  Qed.
  Lemma copy_eq : sub w -> names w c <> [] -> exists w', copy sample c w = (w', Ok (List.length (w_ctxs w))) /\ copied (List.length (w_ctxs w)) (x_priors (ctx_at w c)) w'.
  Proof.
    intros S N. unfold copy, apply_fun. unfold abind at 1, get_ctx. fold (ctx_at w c). unfold abind at 1. rewrite (collect_pure _ item).
    2:{ intros [k d] I. cbn [fst snd]. assert (Q : exists q, In (k, q) (x_params (ctx_at w c))).
        { apply names_params. rewrite (proj1 T c H). unfold priors. now apply (in_map fst) in I. }
        destruct Q as [q Q]. destruct (co_param w C c k q H Q) as (_ & _ & _ & d0 & b0 & D0 & B0 & Sh & _ & G1 & G2 & _). assert (Eb : b0 = b) by congruence. rewrite Eb in G1.
        pose proof Q as Q'. apply param_in in Q'; auto. unfold abind. rewrite (get_parameter_eq w c k q Q'), param_value_eq.
        rewrite Sh. unfold item. cbn [fst snd]. rewrite Q'. unfold ret. do 5 f_equal.
        unfold full_shape. rewrite G1, G2, app_length. replace (List.length b + List.length (d_event d0) - List.length (d_event d0)) with (List.length b) by lia.
        rewrite firstn_app, Nat.sub_diag, firstn_all. cbn. apply app_nil_r. }
    pose proof (fun new => copy_loop new (x_priors (ctx_at w c)) [] ) as L.
    assert (NP : x_priors (ctx_at w c) <> []).
    { intros Z. apply N. rewrite (proj1 T c H). unfold priors. now rewrite Z. }
    remember (x_priors (ctx_at w c)) as ps eqn:Ps. destruct ps as [|[k0 d0] ps]; [easy|]. cbn [map]. unfold item at 1. cbn [fst snd].
    assert (F : forall l, forallb (fun q : list nat * string * dist * tensor => let '(b', _, _, _) := q in if list_eq_dec Nat.eq_dec b b' then true else false) (map item l) = true).
    { intros l. apply forallb_forall. intros q I. apply in_map_iff in I. destruct I as (kd & <- & _). unfold item. now destruct (list_eq_dec Nat.eq_dec b b). }
    change (item (k0, d0) :: map item ps) with (map item ((k0, d0) :: ps)). rewrite F. unfold abind at 1, new_ctx. set (new := List.length (w_ctxs w)).
    set (w1 := World _ _ _ _). unfold abind at 1.
    assert (A1 : ctx_at w1 new = empty_ctx (x_quasi (ctx_at w c))) by (unfold ctx_at at 1; cbn; apply app_nth_new).
    assert (X1 : exists_ctx w1 new) by (unfold exists_ctx; cbn; rewrite app_length; cbn; unfold new; lia).
    pose proof (co_new_ctx (x_quasi (ctx_at w c)) w C) as C1. change (fst (new_ctx (empty_ctx (x_quasi (ctx_at w c))) w)) with w1 in C1.
    assert (S1 : sub w1) by (apply (since_new_ctx w (x_quasi (ctx_at w c)) w); split; [exact S|apply grows_refl]).
    pose proof (co_set_batch new b w1 C1) as C2.
    assert (S2 : sub (fst (set_batch_shape new b w1))) by (apply (since_set_batch_shape w1 new b w1); split; [exact S1|apply grows_refl]).
    rewrite set_batch_eq in *. unfold batch_of in *. rewrite A1 in *. cbn [empty_ctx x_batch] in *.
    match goal with |- context [put_ctx new ?y w1] => set (x2 := y) in * end. cbn [fst] in C2, S2. set (w2 := fst (put_ctx new x2 w1)) in *.
    change (put_ctx new x2 w1) with (w2, Ok tt). cbn beta iota. unfold abind at 1.
    assert (A2 : ctx_at w2 new = x2) by (unfold w2; rewrite ctx_put, Nat.eqb_refl; apply Nat.ltb_lt in X1; now rewrite X1).
    destruct (L new w2 eq_refl) as (w3 & E3 & I3).
    - constructor; auto; unfold batch_of, verifies, names; try rewrite A2; try reflexivity; [now apply exists_put|easy].
    - change (for_each _ _ w2) with (for_each (map item ((k0, d0) :: ps)) (fill new) w2). rewrite E3. exists w3. split; [reflexivity|exact I3].
  Qed.
End Copy.

(** Copying a context with parameters gives a new context with the same batch shape, names, priors and values. *)
Theorem C48_equal : forall sample l c, sampler_ok sample -> Forall no_load l -> Forall unbatched l -> let w := history sample l no_world in
  exists_ctx w c -> names w c <> [] ->
  exists w' new, perform sample (OCopy c) w = (w', Ok (Some new)) /\ ~ exists_ctx w new /\ exists_ctx w' new /\
    batch_of w' new = batch_of w c /\ names w' new = names w c /\ priors w' new = priors w c /\ verifies w' new = true /\
    (forall n, prior_at w' new n = prior_at w c n /\ value w' new n = value w c n) /\
    (forall c', exists_ctx w c' -> same_context w w' c').
Proof.
  intros sample l c G N U w H M. assert (R : reached sample w) by (split; [exact G|exists l; auto]). pose proof (reached_coherent _ _ R) as C.
  pose proof (tidy_reach sample l U) as T. fold w in T.
  assert (B : exists b, batch_of w c = Some b).
  { destruct (names w c) as [|n ns] eqn:E; [easy|]. destruct (names_params w c n) as [p I]; [rewrite E; now left|]. destruct (co_param w C c n p H I) as (_ & _ & _ & d & b & _ & B & _). eauto. }
  destruct B as [b B]. destruct (copy_eq sample G w c C T H b B (reached_sub _ _ R) M) as (w' & E & K). exists w', (List.length (w_ctxs w)).
  assert (P : perform sample (OCopy c) w = (w', Ok (Some (List.length (w_ctxs w))))) by (cbn [perform]; unfold abind; rewrite E; reflexivity).
  split; [exact P|]. destruct K as [K1 K2 K3 K4 K5 K6 K7 K8]. split; [unfold exists_ctx; lia|]. split; [exact K3|]. split; [congruence|].
  assert (Nm : names w' (List.length (w_ctxs w)) = names w c) by (rewrite K7; symmetry; apply (proj1 T c H)).
  split; [exact Nm|]. split; [unfold priors; now rewrite K6|]. split; [exact K5|]. split.
  - intros n. split; [unfold prior_at; now rewrite K6|]. destruct (in_dec string_dec n (names w c)) as [I|I]; [apply K8; rewrite <- K7, Nm; exact I|].
    unfold value, param_id. assert (X : od_get n (x_params (ctx_at w c)) = None) by now apply od_get_none.
    assert (X' : od_get n (x_params (ctx_at w' (List.length (w_ctxs w)))) = None) by (apply od_get_none; fold (names w' (List.length (w_ctxs w))); now rewrite Nm).
    now rewrite X, X'.
  - intros c' H'. pose proof (C48_independent sample w c' [OCopy c] R H') as I. cbn [history fold_left] in I. rewrite P in I. apply I; repeat constructor. discriminate.
Qed.
Print Assumptions C48_equal.

(** A context without parameters cannot be copied. *)
Theorem C48_empty : forall sample l c, Forall unbatched l -> let w := history sample l no_world in
  exists_ctx w c -> names w c = [] -> perform sample (OCopy c) w = (w, Raise IndexError).
Proof.
  intros sample l c U w H N. pose proof (tidy_reach sample l U) as T. fold w in T. rewrite (proj1 T c H) in N. cbn [perform]. unfold copy, apply_fun. unfold abind, get_ctx. fold (ctx_at w c).
  unfold priors in N. destruct (x_priors (ctx_at w c)); [reflexivity|discriminate].
Qed.
Print Assumptions C48_empty.

(** Both together: whatever is done later with the copy, the original keeps its values, and the other way round. *)
Theorem C48_copy_then : forall sample l c later, sampler_ok sample -> Forall no_load l -> Forall unbatched l -> let w := history sample l no_world in
  exists_ctx w c -> names w c <> [] -> Forall no_load later ->
  exists w' new, perform sample (OCopy c) w = (w', Ok (Some new)) /\
    (Forall (fun o => target o <> Some c) later -> forall n, value (history sample later w') c n = value w c n) /\
    (Forall (fun o => target o <> Some new) later -> forall n, value (history sample later w') new n = value w c n).
Proof.
  intros sample l c later G N U w H M L. destruct (C48_equal sample l c G N U H M) as (w' & new & E & _ & X & _ & _ & _ & _ & V & S). exists w', new. split; [exact E|].
  assert (R : reached sample w) by (split; [exact G|exists l; auto]).
  assert (R' : reached sample w') by (pose proof (reached_step sample w (OCopy c) R I) as K; unfold w in K; now rewrite E in K).
  assert (X2 : exists_ctx w' c).
  { unfold exists_ctx in *. pose proof (since_perform sample w (OCopy c) w (conj (reached_sub _ _ R) (grows_refl w))) as [_ K]. unfold w in K. rewrite E in K. cbn in K.
    pose proof (g_ctxs _ _ K) as K'. unfold w in H. lia. }
  split; intros T n.
  - destruct (S c H) as (_ & _ & _ & _ & S5). destruct (C48_independent sample w' c later R' X2 L T) as (_ & _ & _ & _ & Z). destruct (Z n) as (_ & _ & Z1), (S5 n) as (_ & _ & Z2).
    unfold w. congruence.
  - destruct (C48_independent sample w' new later R' X L T) as (_ & _ & _ & _ & Z). destruct (Z n) as (_ & _ & Z1), (V n) as (_ & Z2). unfold w. congruence.
Qed.
Print Assumptions C48_copy_then.

Example C48_nonvacuous : let w := history numbered two_alike no_world in Forall unbatched two_alike /\ Forall no_load two_alike /\ exists_ctx w 0 /\ names w 0 <> [] /\
  (let w' := fst (perform numbered (OCopy 0) w) in
   Forall (fun o => target o <> Some 0) [OResample 2 [1; 1]] /\
   entry (history numbered [OResample 2 [1; 1]] w') 2 "a" 0 = Some [Fin (INR 10)] /\ entry (history numbered [OResample 2 [1; 1]] w') 0 "a" 0 = Some [Fin (INR 0)]).
Proof.
  intros w. split; [repeat constructor|]. split; [repeat constructor|]. split; [cbv; lia|]. split; [discriminate|]. intros w'. split; [repeat constructor; discriminate|].
  split; cbv -[INR]; reflexivity.
Qed.
