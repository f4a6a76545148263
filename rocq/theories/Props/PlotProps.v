(** C107: what a plot of the posterior shows. *)
From Coq Require Import Reals List Bool String Arith Lia DecimalString.
From Verif.Model Require Import Base Xf Weights Prior Context Plot.
From Verif.Spec Require Import WeightsSpec PlotSpec.
From Verif.Proofs Require Import ContainerProofs WeightsProofs SequentialProofs PlotProofs.
Import ListNotations.
Local Open Scope nat_scope.
Notation length := List.length.

Section Shows.
  Context {C : Type} (kde : list xf -> list xf -> res C) (lowest : R).
  Notation plot := (mimic_arviz_posterior kde lowest).

  (** The axes before plotting: those given, or new ones. *)
  Definition before (ax : option (axes C)) (num_cols : nat) (l0 : list (axis C)) : Prop :=
    match ax with Some a => a = Array l0 | None => exists num_rows, l0 = repeat blank (num_rows * num_cols) end.

  (** The components appear in order, one on each axis, each with its title, its values in all particles on the scale asked for and the
      normalised weights of the state; what was on the axis before stays; the remaining axes are switched off. *)
  Theorem C107_shows ps w num_cols ax c l : Forall sized ps -> o_axes (plot ps (map Fin w) num_cols ax c) = Ok l ->
    let weights := map (fun r => Fin (exp r / Rsum (map exp w))) w in
    exists l0 l1, before ax num_cols l0 /\ l = Array l1 /\ length l1 = length l0 /\ length (components c ps) <= length l0 /\
      forall j a, nth_error l0 j = Some a ->
        (forall p i, nth_error (components c ps) j = Some (p, i) ->
          exists curve t, kde (marginal c p i) weights = Ok curve /\ titled c p i t /\ nth_error l1 j = Some (Axis (ax_curves a ++ [curve]) t (ax_on a))) /\
        (length (components c ps) <= j -> nth_error l1 j = Some (Axis (ax_curves a) (ax_title a) false)).
  Proof.
    intros Hs Eo weights. unfold mimic_arviz_posterior in Eo. set (d := fill _ _) in Eo.
    assert (Hd : forall p, In p ps -> lookup d (p_name p) = Ok (asked c (p_name p))) by (intros p Hp; apply lookup_asked; now apply in_map).
    destruct (make_axes ax d ps num_cols) as [[a|l0]|e] eqn:Em; try discriminate.
    assert (Hb : before ax num_cols l0).
    { unfold before. destruct ax as [a|]; cbn [make_axes] in Em; [congruence|]. destruct (total_numel d ps) as [t|]; cbn [bind] in Em; [|discriminate]. destruct (ceil_div t num_cols) as [r|]; cbn [bind] in Em; [|discriminate].
      unfold subplots in Em. destruct (_ || _); [discriminate|]. destruct (_ && _); [discriminate|]. injection Em as <-. now exists r. }
    destruct w as [|x w]; [discriminate|]. rewrite (normalize_fin lowest (x :: w)) in Eo by discriminate. fold weights in Eo.
    destruct (plot_parameters kde d weights ps (l0, [], 0)) as [[[l1 h1] k1] u] eqn:Ep. cbn [o_axes fst snd] in Eo. destruct u as [[]|e]; [|discriminate]. injection Eo as <-.
    destruct (parameters_drawn kde c d weights ps _ _ _ _ _ _ Hd Hs Ep) as ((Le & Bd & Dr) & -> & _). rewrite app_nil_l. rewrite (labelled_length c ps) in *.
    exists l0, (switch_off (seq 0 (length (components c ps))) l1). split; [exact Hb|]. split; [reflexivity|]. split; [rewrite switch_off_length; exact Le|]. split.
    { destruct (components c ps) as [|q r] eqn:Ec; [cbn; lia|]. apply Bd. unfold labelled_all. rewrite Ec. discriminate. }
    intros j a Ha. destruct (Dr j a Ha) as (_ & D2 & D3). split.
    - intros p i Hc. assert (Hj : j < length (components c ps)) by (apply nth_error_Some; congruence).
      destruct (D3 j (title_of (p_name p) (size c p) i) (marginal c p i) eq_refl) as (_ & cu & Ek & En); [unfold labelled_all; rewrite nth_error_map, Hc; reflexivity|].
      exists cu, (title_of (p_name p) (size c p) i). split; [exact Ek|]. split.
      + apply title_titled. apply nth_error_In in Hc. unfold components in Hc. apply in_flat_map in Hc. destruct Hc as (q & _ & Hq). apply in_map_iff in Hq. destruct Hq as (i' & Eq & Hi). injection Eq as <- <-. apply in_seq in Hi. lia.
      + rewrite (switch_off_nth _ _ _ _ En). apply Nat.ltb_lt in Hj. now rewrite Hj.
    - intros Hj. rewrite (switch_off_nth _ _ _ a (D2 Hj)). apply Nat.ltb_ge in Hj. now rewrite Hj.
  Qed.

  (** It completes if the estimates of all components do, and there are enough axes, in an array. *)
  Definition room (ax : option (axes C)) (num_cols n : nat) : Prop :=
    match ax with Some (Array l) => n <= length l | Some (Single _) => False | None => 0 < num_cols /\ 0 < n /\ (n = 1 -> num_cols <> 1) end.
  Theorem C107_completes_partial ps w num_cols ax c : Forall sized ps -> Forall (fun p => 0 < size c p /\ length (p_rows p) = length w) ps -> w <> [] ->
    (forall p i v, In (p, i) (components c ps) -> exists curve, kde (marginal c p i) v = Ok curve) -> room ax num_cols (length (components c ps)) ->
    exists l, o_axes (plot ps w num_cols ax c) = Ok l.
  Proof.
    intros Hs Hp Hw Hk Hr. unfold mimic_arviz_posterior. set (d := fill _ _).
    assert (Hd : forall p, In p ps -> lookup d (p_name p) = Ok (asked c (p_name p))) by (intros p Hq; apply lookup_asked; now apply in_map).
    assert (Hm : exists l0, make_axes ax d ps num_cols = Ok (Array l0) /\ length (components c ps) <= length l0).
    { destruct ax as [[a|l0]|]; cbn [make_axes room] in *; [contradiction|now exists l0|]. destruct Hr as (R1 & R2 & R3). rewrite (total_components c d ps Hd). cbn [bind]. unfold ceil_div. destruct num_cols as [|m]; [lia|]. set (k := S m) in *. cbn [bind]. unfold subplots.
      set (n := length (components c ps)) in *. pose proof (ceil_enough n k R1) as En. set (r := (n + k - 1) / k) in *. destruct (r =? 0) eqn:E0; [apply Nat.eqb_eq in E0; rewrite E0 in En; lia|]. destruct (k =? 0) eqn:E1; [apply Nat.eqb_eq in E1; lia|]. cbn [orb].
      destruct ((r =? 1) && (k =? 1)) eqn:E2.
      - apply andb_true_iff in E2. destruct E2 as [E2 E3]. apply Nat.eqb_eq in E2, E3. rewrite E2, E3 in En. exfalso. lia.
      - eexists. split; [reflexivity|]. now rewrite repeat_length. }
    destruct Hm as (l0 & -> & Hl). destruct (normalize_ok lowest w Hw) as (v & -> & Lv).
    destruct (parameters_complete kde c d v ps l0 [] 0 Hd Hs) as [[[l1 h1] k1] Ep].
    - eapply Forall_impl; [|exact Hp]. intros p [P1 P2]. split; [exact P1|congruence].
    - exact Hl.
    - intros p i Hi. now apply Hk.
    - rewrite Ep. cbn [o_axes]. eexists. reflexivity.
  Qed.

  (** Refuted: one component in one column (new axes), and an [Axes] as the annotation of the argument asks for, always fail. *)
  Theorem C107_single_refuted : (forall ps w c, length (components c ps) = 1 -> o_axes (plot ps w 1 None c) = Raise AttributeError) /\
    (forall ps w num_cols c a, o_axes (plot ps w num_cols (Some (Single a)) c) = Raise AttributeError).
  Proof.
    split; [|reflexivity]. intros ps w c H1. unfold mimic_arviz_posterior. set (d := fill _ _).
    assert (Hd : forall p, In p ps -> lookup d (p_name p) = Ok (asked c (p_name p))) by (intros p Hq; apply lookup_asked; now apply in_map).
    unfold make_axes. rewrite (total_components c d ps Hd), H1. reflexivity.
  Qed.

  (** Refuted: the dictionary of the caller is left alone.  Every parameter it does not mention is added. *)
  Theorem C107_dictionary_refuted ps w num_cols ax d : exists d', o_dict (plot ps w num_cols ax (Some_of d)) = Some d' /\
    forall n, od_get n d' = match od_get n d with Some b => Some b | None => if in_dec string_dec n (map p_name ps) then Some true else None end.
  Proof.
    unfold mimic_arviz_posterior. cbn [as_dict]. exists (fill (map p_name ps) d). split; [|intros n; apply fill_get].
    destruct (make_axes ax _ ps num_cols) as [[a|l0]|e]; [reflexivity| |reflexivity]. destruct (normalize lowest w) as [[v w']|e]; [|reflexivity]. destruct (plot_parameters kde _ v ps (l0, [], 0)) as [st [[]|e]]; reflexivity.
  Qed.

  (** The log weights of the state are only cleaned (NaN to -infinity, -infinity to the lowest number), which does not change what they
      mean (C07). *)
  Theorem C107_weights ps w num_cols ax c : o_weights (plot ps w num_cols ax c) = w \/ o_weights (plot ps w num_cols ax c) = map (nan_to_num lowest) w.
  Proof.
    unfold mimic_arviz_posterior. destruct (make_axes ax _ ps num_cols) as [[a|l0]|e]; [now left| |now left]. destruct w as [|x w]; [now left|]. destruct (normalize_ok lowest (x :: w)) as (v & -> & _); [discriminate|].
    destruct (plot_parameters kde _ v ps (l0, [], 0)) as [st u]. now right.
  Qed.
End Shows.
Print Assumptions C107_shows.
Print Assumptions C107_completes_partial.
Print Assumptions C107_single_refuted.
Print Assumptions C107_dictionary_refuted.
Print Assumptions C107_weights.

(** A correlation (scalar) on the unconstrained scale and a vector of two, three particles, two columns, axes made by the call. *)
Definition rho : param := Param "rho" (Dist "Uniform" [] 0 false [] [] (fun _ => true) (fun x => x) (map xopp) (fun _ => Fin 0) (fun _ => Fin 0)) [[Fin 1]; [Fin 2]; [Fin 3]].
Definition beta : param := Param "beta" (Dist "Normal" [] 0 false [2] [2] (fun _ => true) (fun x => x) (fun x => x) (fun _ => Fin 0) (fun _ => Fin 0)) [[Fin 4; Fin 5]; [Fin 6; Fin 7]; [Fin 8; Fin 9]].
Definition log_weights : list R := [0; 1; 2]%R.
Definition shown : list (axis (list xf * list xf)) :=
  let w := map (fun r => Fin (exp r / Rsum (map exp log_weights))) log_weights in
  [Axis [([Fin (-1); Fin (-2); Fin (-3)], w)] "rho" true; Axis [([Fin 4; Fin 6; Fin 8], w)] "beta_0" true; Axis [([Fin 5; Fin 7; Fin 9], w)] "beta_1" true; Axis [] "" false].
Example C107_nonvacuous (lowest : R) : Forall sized [rho; beta] /\ Forall (fun p => 0 < size (Some_of [("rho"%string, false)]) p /\ length (p_rows p) = length (map Fin log_weights)) [rho; beta] /\
  room (C := list xf * list xf) None 2 (length (components (Some_of [("rho"%string, false)]) [rho; beta])) /\
  o_axes (mimic_arviz_posterior (fun v w => Ok (v, w)) lowest [rho; beta] (map Fin log_weights) 2 None (Some_of [("rho"%string, false)])) = Ok (Array shown).
Proof.
  split; [|split; [|split]].
  - constructor; [|constructor; [|constructor]]; intros x [<-|[<-|[<-|[]]]]; split; reflexivity.
  - repeat constructor; cbn; lia.
  - cbn. lia.
  - unfold mimic_arviz_posterior. cbn [map p_name rho beta as_dict]. change (make_axes _ _ _ _) with (Ok (Array (repeat (@blank (list xf * list xf)) 4))). cbv iota.
    rewrite normalize_fin by discriminate. cbv iota beta. unfold shown. set (w := map (fun r => Fin (exp r / Rsum (map exp log_weights))) log_weights). assert (Lw : length w = 3) by reflexivity. clearbody w.
    cbn -[xopp decimal length]. unfold do_plot. cbn [column map nth length]. rewrite Lw. cbn -[decimal]. reflexivity.
Qed.

(** Refuted: titles tell components apart.  A vector "a" and a scalar "a_0". *)
Theorem C107_titles_refuted : exists (p q : param) t, p_name p <> p_name q /\ size (All true) p = 2 /\ size (All true) q = 1 /\ titled (All true) p 0 t /\ titled (All true) q 0 t.
Proof.
  exists (Param "a" (p_prior beta) (p_rows beta)), (Param "a_0" (p_prior rho) (p_rows rho)), "a_0"%string. split; [discriminate|]. split; [reflexivity|]. split; [reflexivity|]. split; split; intros H; try discriminate H; try reflexivity.
  - exists "0"%string. split; reflexivity.
  - exfalso. cbn in H. lia.
Qed.
Print Assumptions C107_titles_refuted.
(** Within one parameter they do. *)
Theorem C107_titles c p i j t : i < size c p -> j < size c p -> titled c p i t -> titled c p j t -> i = j.
Proof.
  intros Hi Hj [_ H1] [_ H2]. destruct (le_lt_dec (size c p) 1) as [G|G]; [lia|]. destruct (H1 G) as (u & -> & E1). destruct (H2 G) as (v & Ev & E2).
  assert (Es : forall (s a b : string), (s ++ a = s ++ b)%string -> a = b) by (induction s as [|x s IH]; intros a b Eq; cbn in Eq; [exact Eq|]; injection Eq as Eq; exact (IH a b Eq)).
  apply Es in Ev. cbn in Ev. injection Ev as <-. congruence.
Qed.
Print Assumptions C107_titles.
