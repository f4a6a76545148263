(** Properties C49, C76 (pyfilter/inference/qmc.py:12-52, pyfilter/inference/context.py:394-405). *)
From Coq Require Import Reals Lra List Bool Arith String Lia.
From Verif.Model Require Import Base Xf Prior Context Qmc.
From Verif.Spec Require Import ContextSpec QmcSpec.
From Verif.Proofs Require Import ContextProofs ContextHeap.
From Verif.Props Require Import ContextProps ContextUpdateProps ContextStackingProps.
Import ListNotations.
Local Open Scope list_scope.
Local Open Scope nat_scope.

Lemma remainder_ok x : modulo_one x (remainder1 x).
Proof.
  unfold modulo_one, remainder1. destruct (base_Int_part x) as [H1 H2]. split; [lra|]. exists (Int_part x). ring.
Qed.
Lemma safe_half eps u : towards_half eps u (safe eps u).
Proof. unfold towards_half, safe. lra. Qed.
Lemma safe_inside eps u : (0 < eps < 1)%R -> (0 <= u <= 1)%R -> (eps / 2 <= safe eps u <= 1 - eps / 2)%R.
Proof. unfold safe. intros E U. split; nra. Qed.

(** * C49 *)
(** Every probability handed out lies between eps/2 and 1 - eps/2, whatever the state of the engine and its rotation. *)
Theorem C49_inside : forall eps sobol uniform e shape, (0 < eps < 1)%R -> sobol_ok sobol ->
  Forall (Forall (fun p => (0 < p < 1)%R /\ (eps / 2 <= p <= 1 - eps / 2)%R)) (snd (engine_sample eps sobol uniform e shape)).
Proof.
  intros eps sobol uniform e shape E S.
  assert (G : forall u, (0 <= u <= 1)%R -> (0 < safe eps u < 1)%R /\ (eps / 2 <= safe eps u <= 1 - eps / 2)%R).
  { intros u U. pose proof (safe_inside eps u E U). split; lra. }
  unfold engine_sample. destruct (e_randomize e); cbn [snd]; apply Forall_map.
  - rewrite map_map. apply Forall_map, Forall_forall. intros k _. apply Forall_map. unfold rotate. apply Forall_map, Forall_forall. intros q _. apply G.
    destruct (remainder_ok (fst q + snd q)) as [H _]. lra.
  - apply Forall_map, Forall_forall. intros k _. apply Forall_map. destruct (S (e_dim e) k) as [_ F]. eapply Forall_impl; [|exact F]. exact G.
Qed.
Print Assumptions C49_inside.

(** One row for each entry of the shape. *)
Theorem C49_count : forall eps sobol uniform e shape, List.length (snd (engine_sample eps sobol uniform e shape)) = prod_list shape.
Proof. intros. unfold engine_sample. destruct (e_randomize e); cbn [snd]; now rewrite ?map_length, seq_length. Qed.

Lemma map_seq_app {A} (f : nat -> A) s a b : map f (seq s a) ++ map f (seq (s + a) b) = map f (seq s (a + b)).
Proof. now rewrite seq_app, map_app. Qed.
Lemma drawn_plain eps sobol uniform shapes : forall d rot s,
  snd (drawn eps sobol uniform (Engine d false rot s) shapes) = map (fun k => map (safe eps) (sobol d k)) (seq s (list_sum (map prod_list shapes))).
Proof.
  induction shapes as [|sh shapes IH]; intros d rot s; [reflexivity|]. cbn [drawn map]. unfold engine_sample. cbn [e_randomize e_dim e_rotation e_pos].
  pose proof (IH d rot (s + prod_list sh)) as E. destruct (drawn _ _ _ _ shapes) as [e2 y]. cbn [snd] in *. rewrite E, map_map.
  change (list_sum (prod_list sh :: map prod_list shapes)) with (prod_list sh + list_sum (map prod_list shapes)). apply map_seq_app.
Qed.
Lemma drawn_rotated eps sobol uniform shapes : forall d rot s,
  snd (drawn eps sobol uniform (Engine d true (Some rot) s) shapes) = map (fun k => map (safe eps) (rotate rot (sobol d k))) (seq s (list_sum (map prod_list shapes))).
Proof.
  induction shapes as [|sh shapes IH]; intros d rot s; [reflexivity|]. cbn [drawn map]. unfold engine_sample. cbn [e_randomize e_dim e_rotation e_pos].
  pose proof (IH d rot (s + prod_list sh)) as E. destruct (drawn _ _ _ _ shapes) as [e2 y]. cbn [snd] in *. rewrite E, !map_map.
  change (list_sum (prod_list sh :: map prod_list shapes)) with (prod_list sh + list_sum (map prod_list shapes)).
  exact (map_seq_app (fun k => map (safe eps) (rotate rot (sobol d k))) s _ _).
Qed.
Lemma drawn_first eps sobol uniform shapes : forall d s,
  snd (drawn eps sobol uniform (Engine d true None s) shapes) = snd (drawn eps sobol uniform (Engine d true (Some (uniform d)) s) shapes).
Proof. destruct shapes; reflexivity. Qed.

(** Over any sequence of calls the engine's points are handed out one after the other; without randomisation as they
    are (moved towards one half), with it shifted by one vector, the same for all calls, modulo one. *)
Theorem C49_points : forall eps sobol uniform dim randomize shapes, sobol_ok sobol -> (forall d, List.length (uniform d) = d) ->
  let out := snd (drawn eps sobol uniform (new_engine dim randomize) shapes) in
  List.length out = list_sum (map prod_list shapes) /\
  forall k, k < List.length out -> List.length (nth k out []) = dim /\
    forall j, j < dim -> exists u, towards_half eps u (nth j (nth k out []) 0%R) /\
      if randomize then modulo_one (nth j (sobol dim k) 0 + nth j (uniform dim) 0)%R u else u = nth j (sobol dim k) 0%R.
Proof.
  intros eps sobol uniform dim randomize shapes S U out. unfold new_engine in out.
  set (f := fun k => map (safe eps) (if randomize then rotate (uniform dim) (sobol dim k) else sobol dim k)).
  assert (E : out = map f (seq 0 (list_sum (map prod_list shapes)))).
  { unfold out, f. destruct randomize; [rewrite drawn_first, drawn_rotated|rewrite drawn_plain]; reflexivity. }
  rewrite E. split; [now rewrite map_length, seq_length|]. intros k K. rewrite map_length, seq_length in K.
  rewrite (nth_indep _ [] (f 0)) by now rewrite map_length, seq_length. rewrite (map_nth f), seq_nth by exact K. cbn [Nat.add].
  destruct (S dim k) as [L _]. unfold f. rewrite map_length. split.
  - destruct randomize; [|exact L]. unfold rotate. rewrite map_length, combine_length, L, U. lia.
  - intros j J. destruct randomize.
    + exists (remainder1 (nth j (sobol dim k) 0 + nth j (uniform dim) 0)%R). split; [|apply remainder_ok].
      rewrite (nth_indep (map (safe eps) _) 0%R (safe eps 0)) by (unfold rotate; rewrite !map_length, combine_length, L, U; lia). rewrite (map_nth (safe eps)).
      unfold rotate. set (g := fun p : R * R => remainder1 (fst p + snd p)). rewrite (nth_indep (map g _) 0%R (g (0%R, 0%R))) by (rewrite map_length, combine_length, L, U; lia).
      rewrite (map_nth g), combine_nth by now rewrite L, U. apply safe_half.
    + exists (nth j (sobol dim k) 0%R). split; [|reflexivity].
      rewrite (nth_indep (map (safe eps) _) 0%R (safe eps 0)) by (rewrite map_length, L; lia). rewrite (map_nth (safe eps)). apply safe_half.
Qed.
Print Assumptions C49_points.

Example C49_nonvacuous : let sobol := fun d k => repeat (/ INR (S k))%R d in
  sobol_ok sobol /\ (forall d, List.length (repeat (1 / 2)%R d) = d) /\ (0 < 1 / 8 < 1)%R /\
  snd (drawn (1 / 8) sobol (repeat (1 / 2)%R) (new_engine 2 false) [[1]; [1]]) = [[15 / 16; 15 / 16]; [1 / 2; 1 / 2]]%R.
Proof.
  intros sobol. split; [|split; [intros; apply repeat_length|split; [lra|]]].
  - intros d k. unfold sobol. split; [apply repeat_length|]. apply Forall_forall. intros p I. apply repeat_spec in I. subst p.
    assert (0 < INR (S k))%R by (apply lt_0_INR; lia). assert (1 <= INR (S k))%R by (apply (le_INR 1); lia). split; [left; now apply Rinv_0_lt_compat|].
    rewrite <- Rinv_1. apply Rinv_le_contravar; lra.
  - unfold sobol. cbn. unfold safe. assert (E : forall a b c d a' b' c' d' : R, a = a' -> b = b' -> c = c' -> d = d' -> [[a; b]; [c; d]] = [[a'; b']; [c'; d']]) by (intros; now subst).
    apply E; lra.
Qed.

(** * C76 *)
Definition quasi_goal (icdf : dist -> list xf -> list xf) (c : nat) (w : world) (a : piece) : res (list (list xf)) :=
  match prior_at w c (fst (fst a)) with
  | None => Raise AttributeError
  | Some d => if forallb (fun r => List.length r =? prod_list (d_event d)) (snd a) then Ok (map (fun r => d_fwd d (icdf d r)) (snd a)) else Raise RuntimeError
  end.
(** A context whose parameters all have as many unconstrained as constrained components gets, in each entry of its
    batch, the image of that entry's point of the engine under the inverse distribution functions. *)
Theorem C76_initialize_partial : forall sample eps sobol uniform icdf w c randomize, reached sample w -> exists_ctx w c -> names w c <> [] ->
  (0 < eps < 1)%R -> sobol_ok sobol -> (forall d, List.length (uniform d) = d) ->
  (forall n d, prior_at w c n = Some d -> prod_list (d_uevent d) = prod_list (d_event d) /\
     forall r, List.length r = prod_list (d_uevent d) -> List.length (d_fwd d (icdf d r)) = prod_list (d_event d)) ->
  (forall n d, prior_at w c n = Some d -> Forall (fun r => List.length (d_inv d r) = prod_list (d_uevent d)) (rows_of w c n)) ->
  0 < batch_size w c ->
  exists w' e part, initialize_parameters eps sobol uniform icdf c randomize w = (w', Ok e) /\ e_dim e = total_size w c false /\ same_tables w w' /\
    laid_out (names w c) part (map (map Fin) (snd (engine_sample eps sobol uniform (new_engine (total_size w c false) randomize) (match batch_of w c with Some b => b | None => [] end)))) /\
    (forall n b, b < batch_size w c -> List.length (part n b) = size_of w c false n) /\
    (forall n d b, In n (names w c) -> prior_at w c n = Some d -> b < batch_size w c -> entry w' c n b = Some (d_fwd d (icdf d (part n b)))) /\
    (forall c' n, exists_ctx w c' -> c' <> c -> value w' c' n = value w c' n).
Proof.
  intros sample eps sobol uniform icdf w c randomize Rc H N E S U P Q B0. pose proof (reached_coherent _ _ Rc) as C.
  destruct (C40_stack sample w c false Rc H N) as (out & Eo & Lo & Oo).
  (* the width of the stacked matrix *)
  assert (W : List.length (nth 0 out []) = total_size w c false).
  { rewrite Oo by lia. unfold total_size. assert (K : forall n, In n (names w c) -> List.length (part_of w c false n 0) = size_of w c false n).
    { intros n I. apply names_params in I. destruct I as [p I]. destruct (batch_fits w c n p C H I) as (d & D & _ & Lr & _). unfold part_of, size_of. rewrite D.
      specialize (Q n d D). rewrite Forall_forall in Q. apply Q. apply nth_In. unfold rows_of, value. rewrite (proj1 (param_in w c n p C H) I). cbn [option_map]. lia. }
    revert K. generalize (names w c) as l. induction l as [|n l IH]; intros K; [reflexivity|]. cbn [map List.concat]. rewrite app_length, K by now left.
    rewrite IH by (intros; apply K; now right). reflexivity. }
  destruct (batch_of w c) as [batch|] eqn:Bt; [|unfold batch_size in B0; rewrite Bt in B0; lia].
  assert (Bs : batch_size w c = prod_list batch) by (unfold batch_size; now rewrite Bt).
  set (en := engine_sample eps sobol uniform (new_engine (total_size w c false) randomize) batch).
  set (x := map (map Fin) (snd en)).
  assert (Lx : List.length x = batch_size w c) by (unfold x, en; rewrite map_length, C49_count; now symmetry).
  destruct (C49_points eps sobol uniform (total_size w c false) randomize [batch] S U) as [_ Pt].
  assert (Dr : snd (drawn eps sobol uniform (new_engine (total_size w c false) randomize) [batch]) = snd en).
  { cbn [drawn]. fold en. destruct en. cbn. apply app_nil_r. }
  cbv zeta in Pt. rewrite Dr in Pt.
  destruct (laid_out_exists sample w c false x Rc H) as (part & O & Z).
  { unfold x. apply Forall_map, Forall_forall. intros r I. rewrite map_length. destruct (In_nth _ _ [] I) as (k & K1 & K2). rewrite <- K2. now apply Pt. }
  set (l := slices (x_params (ctx_at w c)) (size_of w c false) x 0).
  set (m := for_each l (fun a => inverse_sample icdf (piece_id a) (snd a)) w).
  assert (Ep : initialize_parameters eps sobol uniform icdf c randomize w = (do! _ <- (fun _ => m) in ret (fst en)) w).
  { unfold initialize_parameters. unfold abind at 1. rewrite Eo. unfold abind at 1, get_ctx at 1. fold (ctx_at w c). unfold batch_of in Bt. rewrite Bt, W. fold en.
    destruct en as [e probs] eqn:Een. cbn [fst]. unfold abind at 1 2. unfold m, l, x. cbn [snd].
    rewrite (apply_slices (x_params (ctx_at w c)) (x_ushapes (ctx_at w c)) (size_of w c false)); [reflexivity|].
    intros n p I. exact (shapes_sizes w c false n p C H I). }
  assert (J : forall a, In a l -> In (fst a) (x_params (ctx_at w c))).
  { intros a I. apply (in_map (fun a : piece => fst a)) in I. unfold l in I. now rewrite slices_names in I. }
  destruct (loop_effect piece_id (fun a => inverse_sample icdf (piece_id a) (snd a)) (quasi_goal icdf c w) l w C) as (l1 & l2 & El & F & G).
  - intros [[n p] rows] I. apply J in I. now apply (co_param w C c n p).
  - unfold l. rewrite slices_ids. now apply params_nodup.
  - intros [[n p] rows] w' I (A1 & A2 & A3 & A4). apply J in I. cbn [fst snd piece_id] in *. destruct (co_param w C c n p H I) as (_ & _ & _ & d & b & D & _).
    unfold inverse_sample, quasi_goal. unfold abind. cbn [fst snd]. rewrite (prior_of_eq w w' c n p d), D by auto. destruct forallb; reflexivity.
  - assert (El' : l = map (fun np : string * nat => (fst np, snd np, map (part (fst np)) (seq 0 (List.length x))) : piece) (x_params (ctx_at w c))) by now apply slices_all.
    assert (Qg : forall n p d, In (n, p) (x_params (ctx_at w c)) -> prior_at w c n = Some d ->
      g' piece_id (quasi_goal icdf c w) w (n, p, map (part n) (seq 0 (List.length x))) = Ok (map (fun b => d_fwd d (icdf d (part n b))) (seq 0 (batch_size w c)))).
    { intros n p d I D. destruct (batch_fits w c n p C H I) as (d' & D' & E1 & E2 & E3). assert (d' = d) by congruence. subst d'. destruct (P n d D) as [P1 P2].
      assert (Lp : forall b, b < batch_size w c -> List.length (part n b) = prod_list (d_event d)).
      { intros b Hb. rewrite <- Lx in Hb. rewrite (Z n b Hb). unfold size_of. rewrite D. exact P1. }
      unfold g', quasi_goal, piece_id. cbn [fst snd]. rewrite D. rewrite (proj2 (forallb_forall _ _)).
      - rewrite E1, map_map, Lx, fits_check; [reflexivity|rewrite map_length, seq_length; auto|].
        apply Forall_forall. intros r Jr. apply in_map_iff in Jr. destruct Jr as (b & <- & Jr). apply in_seq in Jr. apply P2. rewrite P1. apply Lp. lia.
      - intros r Jr. apply in_map_iff in Jr. destruct Jr as (b & <- & Jr). apply in_seq in Jr. apply Nat.eqb_eq, Lp. lia. }
    destruct l2 as [|a l2].
    2:{ destruct G as (e & G & _). assert (Ia : In a l) by (rewrite El; apply in_or_app; right; now left). rewrite El' in Ia. apply in_map_iff in Ia. destruct Ia as ([n p] & <- & I).
        destruct (batch_fits w c n p C H I) as (d & D & _). cbn [fst snd] in G. rewrite (Qg n p d I D) in G. discriminate. }
    rewrite app_nil_r in El. rewrite <- El in F. clear l1 El. exists (fst m), (fst en), part. fold m in F, G. destruct F as (F1 & F2 & F3 & F4).
    split; [rewrite Ep; unfold abind; destruct m as [w' r]; cbn [snd fst] in *; subst r; reflexivity|]. split; [unfold en, engine_sample; cbn [new_engine e_randomize e_dim e_rotation]; now destruct randomize|].
    split; [exact F2|]. split; [exact O|]. split; [intros n b Hb; apply Z; now rewrite Lx|]. split.
    + intros n d b I D Hb. apply names_params in I. destruct I as [p I]. destruct (F3 (n, p, map (part n) (seq 0 (List.length x)))) as (rows & G1 & G2).
      { rewrite El'. apply in_map_iff. exists (n, p). auto. }
      rewrite (Qg n p d I D) in G1. injection G1 as <-. cbn [piece_id fst snd] in G2. destruct (by_name w (fst m) c n p C F2 H I) as [V' V].
      unfold entry. rewrite V', G2. cbn [set_rows t_rows]. now rewrite map_seq_nth.
    + intros c' n H' Nc. apply (after_other piece_id (quasi_goal icdf c w) l w (fst m) c); auto; [|now split].
      intros a I. apply J in I. destruct a as [[n' p] rows]. cbn in *. now apply (in_map snd) in I.
Qed.
Print Assumptions C76_initialize_partial.

(** A prior on a simplex has fewer unconstrained components than constrained ones: initialisation raises. *)
Theorem C76_simplex_refuted : let w := history numbered [ONew (Some false); OShape 0 [2]; ORegister 0 "s" simplex_prior] no_world in
  exists w', initialize_parameters (1 / 8) (fun d k => repeat 0%R d) (repeat 0%R) (fun d p => p) 0 false w = (w', Raise RuntimeError).
Proof. intros w. unfold w. clear w. eexists. cbv -[INR IZR Rplus Rmult Rminus Rdiv]. reflexivity. Qed.
Print Assumptions C76_simplex_refuted.

Example C76_nonvacuous : let w := history numbered [ONew (Some false); OShape 0 [2]; ORegister 0 "a" normal_prior; ORegister 0 "b" normal_prior] no_world in
  let sobol := fun d k => repeat 0%R d in
  reached numbered w /\ exists_ctx w 0 /\ names w 0 <> [] /\ sobol_ok sobol /\ 0 < batch_size w 0 /\
  (forall n d, prior_at w 0 n = Some d -> prod_list (d_uevent d) = prod_list (d_event d) /\
     forall r : list xf, List.length r = prod_list (d_uevent d) -> List.length (d_fwd d r) = prod_list (d_event d)) /\
  (forall n d, prior_at w 0 n = Some d -> Forall (fun r => List.length (d_inv d r) = prod_list (d_uevent d)) (rows_of w 0 n)).
Proof.
  intros w sobol. split; [split; [apply numbered_ok|]; eexists; split; [|reflexivity]; repeat constructor|]. split; [cbv; lia|].
  assert (Nm : names w 0 = ["a"%string; "b"%string]) by (cbv -[INR IZR]; reflexivity). assert (B : batch_size w 0 = 2) by (cbv -[INR IZR]; reflexivity).
  assert (Pr : x_priors (ctx_at w 0) = [("a"%string, normal_prior); ("b"%string, normal_prior)]) by (cbv -[INR IZR]; reflexivity).
  assert (Rw : rows_of w 0 "a" = [[Fin (INR 0)]; [Fin (INR 10)]] /\ rows_of w 0 "b" = [[Fin (INR 0)]; [Fin (INR 10)]]) by (split; cbv -[INR IZR]; reflexivity).
  clearbody w. split; [rewrite Nm; discriminate|]. split.
  { intros d k. unfold sobol. split; [apply repeat_length|]. apply Forall_forall. intros p I. apply repeat_spec in I. subst p. lra. }
  split; [rewrite B; lia|]. unfold prior_at. rewrite Pr. split.
  - intros n d D. cbn in D. destruct (String.eqb n "a"); [|destruct (String.eqb n "b"); [|discriminate]]; injection D as <-; split; auto.
  - intros n d D. cbn in D. destruct (String.eqb_spec n "a"); [|destruct (String.eqb_spec n "b"); [|discriminate]]; injection D as <-; subst n; destruct Rw as [R1 R2]; rewrite ?R1, ?R2; repeat constructor.
Qed.
