(** Lemmas for C107. *)
From Coq Require Import Reals List Bool String Arith Lia DecimalString DecimalNat.
From Verif.Model Require Import Base Xf Weights Prior Context Plot.
From Verif.Spec Require Import PlotSpec.
From Verif.Proofs Require Import ContainerProofs.
Import ListNotations.
Local Open Scope nat_scope.
Notation length := List.length.

Lemma fill_get names n : forall d, od_get n (fill names d) = match od_get n d with Some b => Some b | None => if in_dec string_dec n names then Some true else None end.
Proof.
  unfold fill. induction names as [|m names IH]; intros d; cbn [fold_left].
  - destruct (od_get n d); [reflexivity|]. now destruct (in_dec string_dec n []) as [[]|].
  - rewrite IH. unfold od_mem. destruct (od_get m d) as [b|] eqn:Em.
    + destruct (od_get n d) eqn:En; [reflexivity|]. destruct (in_dec string_dec n names) as [H|H], (in_dec string_dec n (m :: names)) as [H'|H']; try reflexivity.
      * contradiction H'. now right.
      * destruct H' as [->|H']; [congruence|contradiction].
    + rewrite od_get_set. destruct (string_dec n m) as [->|N].
      * rewrite Em. destruct (in_dec string_dec m (m :: names)) as [_|H']; [reflexivity|]. contradiction H'. now left.
      * destruct (od_get n d) eqn:En; [reflexivity|]. destruct (in_dec string_dec n names) as [H|H], (in_dec string_dec n (m :: names)) as [H'|H']; try reflexivity.
        -- contradiction H'. now right.
        -- destruct H' as [->|H']; [congruence|contradiction].
Qed.
Lemma sets_get names (b : bool) n : forall d, od_get n (fold_left (fun d n => od_set n b d) names d) = if in_dec string_dec n names then Some b else od_get n d.
Proof.
  induction names as [|m names IH]; intros d; cbn [fold_left].
  - now destruct (in_dec string_dec n []) as [[]|].
  - rewrite IH, od_get_set. destruct (in_dec string_dec n names) as [H|H], (in_dec string_dec n (m :: names)) as [H'|H'].
    + reflexivity.
    + contradiction H'. now right.
    + destruct H' as [->|H']; [|contradiction]. destruct (string_dec n n) as [_|N]; [reflexivity|now contradiction N].
    + destruct (string_dec n m) as [->|N]; [|reflexivity]. contradiction H'. now left.
Qed.
(** After plot.py:53-58 the dictionary says what was asked. *)
Lemma lookup_asked c names n : In n names -> lookup (fill names (as_dict c names)) n = Ok (asked c n).
Proof.
  intros H. unfold lookup. rewrite fill_get. destruct c as [b|d]; cbn [as_dict asked].
  - rewrite sets_get. destruct (in_dec string_dec n names) as [_|N]; [reflexivity|contradiction].
  - destruct (od_get n d); [reflexivity|]. destruct (in_dec string_dec n names) as [_|N]; [reflexivity|contradiction].
Qed.

Lemma total_components c d : forall ps, (forall p, In p ps -> lookup d (p_name p) = Ok (asked c (p_name p))) -> total_numel d ps = Ok (length (components c ps)).
Proof.
  induction ps as [|p ps IH]; intros H; cbn [total_numel]; [reflexivity|]. rewrite (H p) by now left. cbn [bind]. rewrite IH by (intros q Hq; apply H; now right). cbn [bind].
  unfold components. cbn [flat_map]. rewrite app_length, map_length, seq_length. reflexivity.
Qed.

Lemma cut_concat n rows : (forall x, In x rows -> length x = n) -> cut (length rows) n (List.concat rows) = rows.
Proof.
  induction rows as [|x rows IH]; intros H; [reflexivity|]. cbn [List.concat length cut]. rewrite firstn_app, skipn_app, (H x) by now left.
  rewrite Nat.sub_diag. cbn [firstn skipn]. rewrite app_nil_r. rewrite <- (H x) by now left. rewrite firstn_all, skipn_all. cbn [app]. rewrite (H x) by now left. rewrite IH; [reflexivity|]. intros y Hy. apply H. now right.
Qed.
Lemma concat_length n (rows : list (list xf)) : (forall x, In x rows -> length x = n) -> length (List.concat rows) = length rows * n.
Proof. induction rows as [|x rows IH]; intros H; [reflexivity|]. cbn [List.concat length]. rewrite app_length, IH, (H x); [reflexivity|now left|]. intros y Hy. apply H. now right. Qed.
Lemma view_rows_spec n rows : (forall x, In x rows -> length x = n) -> view_rows n rows = if n =? 0 then Raise RuntimeError else Ok rows.
Proof.
  intros H. unfold view_rows. destruct (n =? 0) eqn:E; [reflexivity|]. apply Nat.eqb_neq in E. rewrite (concat_length n rows H), Nat.mod_mul by exact E. cbn [Nat.eqb]. rewrite Nat.div_mul by exact E. now rewrite cut_concat.
Qed.

Lemma decimal_read i : option_map Nat.of_uint (NilZero.uint_of_string (decimal i)) = Some i.
Proof.
  unfold decimal. rewrite NilZero.usu; [cbn; now rewrite Unsigned.of_to|]. intros H. pose proof (Unsigned.of_to i) as E. rewrite H in E. cbn in E. subst i. discriminate.
Qed.
Lemma title_titled c p i : i < size c p -> titled c p i (title_of (p_name p) (size c p) i).
Proof.
  intros Hi. unfold titled, title_of. split; intros H.
  - rewrite H. reflexivity.
  - apply Nat.ltb_lt in H. rewrite H. exists (decimal i). split; [reflexivity|apply decimal_read].
Qed.

Lemma nth_error_replace {A} k (a : A) : forall l i, nth_error (replace_nth k a l) i = if (i =? k) && (i <? length l) then Some a else nth_error l i.
Proof.
  induction k as [|k IH]; intros [|x l] [|i]; try reflexivity; cbn [replace_nth nth_error length]; rewrite ?andb_false_r; try reflexivity. rewrite IH. reflexivity.
Qed.
Lemma nth_error_nil_any {A} i : @nth_error A [] i = None. Proof. now destruct i. Qed.

Section Draw.
  Context {C : Type} (kde : list xf -> list xf -> res C).

  (** [l'] shows [comps] (title and values) on the axes from [k] on, added to what [l] shows. *)
  Definition drawn (w : list xf) (comps : list (string * list xf)) (k : nat) (l l' : list (axis C)) : Prop :=
    length l' = length l /\ (comps <> [] -> k + length comps <= length l) /\
    forall i a, nth_error l i = Some a -> (i < k -> nth_error l' i = Some a) /\ (k + length comps <= i -> nth_error l' i = Some a) /\
      forall j t v, i = k + j -> nth_error comps j = Some (t, v) -> length v = length w /\ exists c, kde v w = Ok c /\ nth_error l' i = Some (Axis (ax_curves a ++ [c]) t (ax_on a)).

  Lemma drawn_nil w k l : drawn w [] k l l.
  Proof. repeat split; try congruence; intros; auto. - destruct j; discriminate. - destruct j; discriminate. Qed.
  Lemma drawn_app w c1 c2 k l l1 l2 : drawn w c1 k l l1 -> drawn w c2 (k + length c1) l1 l2 -> drawn w (c1 ++ c2) k l l2.
  Proof.
    intros (L1 & B1 & D1) (L2 & B2 & D2). split; [congruence|]. rewrite app_length. split.
    - intros N. destruct c2 as [|x c2].
      + rewrite app_nil_r in N. specialize (B1 N). cbn. lia.
      + assert (x :: c2 <> []) as N2 by discriminate. specialize (B2 N2). lia.
    - intros i a Ha. destruct (D1 i a Ha) as (E1 & E2 & E3). split; [|split].
      + intros Hi. refine (proj1 (D2 i a (E1 Hi)) _). lia.
      + intros Hi. assert (H1 : k + length c1 <= i) by lia. refine (proj1 (proj2 (D2 i a (E2 H1))) _). lia.
      + intros j t v -> Hj. destruct (le_lt_dec (length c1) j) as [G|G].
        * rewrite nth_error_app2 in Hj by exact G. destruct (D2 (k + j) a (E2 ltac:(lia))) as (_ & _ & E). apply (E (j - length c1) t v); [lia|exact Hj].
        * rewrite nth_error_app1 in Hj by exact G. destruct (E3 j t v eq_refl Hj) as (Lv & c & Ec & Ea). split; [exact Lv|]. exists c. split; [exact Ec|]. refine (proj1 (D2 _ _ Ea) _). lia.
  Qed.
  Lemma drawn_one w t v k l a c : nth_error l k = Some a -> length v = length w -> kde v w = Ok c -> drawn w [(t, v)] k l (replace_nth k (Axis (ax_curves a ++ [c]) t (ax_on a)) l).
  Proof.
    intros Ha Lv Ec. assert (Hk : k < length l) by (apply nth_error_Some; congruence). split; [|split].
    - clear. revert k. induction l as [|x l IH]; intros [|k]; cbn; auto.
    - cbn. lia.
    - intros i b Hb. rewrite nth_error_replace. cbn [length]. split; [|split].
      + intros Hi. destruct (i =? k) eqn:E; [apply Nat.eqb_eq in E; lia|]. exact Hb.
      + intros Hi. destruct (i =? k) eqn:E; [apply Nat.eqb_eq in E; lia|]. exact Hb.
      + intros [|j] t' v' -> Hj; [|destruct j; discriminate]. cbn in Hj. injection Hj as <- <-. rewrite Nat.add_0_r in *. split; [exact Lv|]. exists c. split; [exact Ec|].
        rewrite Nat.eqb_refl. apply Nat.ltb_lt in Hk. rewrite Hk. cbn. congruence.
  Qed.

  Definition views (flattened : list (list xf)) (name : string) (numel : nat) (is : list nat) : list (string * list xf) :=
    map (fun i => (title_of name numel i, column i flattened)) is.
  Lemma components_drawn fl w name numel : forall is l h k l' h' k', plot_components kde fl w name numel is (l, h, k) = ((l', h', k'), Ok tt) ->
    drawn w (views fl name numel is) k l l' /\ h' = h ++ seq k (length is) /\ k' = k + length is.
  Proof.
    induction is as [|i is IH]; intros l h k l' h' k'; cbn [plot_components].
    - intros Eq. injection Eq as <- <- <-. cbn. rewrite app_nil_r. split; [apply drawn_nil|]. split; [reflexivity|lia].
    - destruct (nth_error l k) as [a|] eqn:Ea; [|discriminate]. unfold do_plot. destruct (length (column i fl) =? length w) eqn:El; [|discriminate]. apply Nat.eqb_eq in El.
      destruct (kde (column i fl) w) as [c|] eqn:Ec; cbn [bind]; [|discriminate]. intros Eq. destruct (IH _ _ _ _ _ _ Eq) as (D & -> & ->). split; [|split].
      + change (views fl name numel (i :: is)) with ([(title_of name numel i, column i fl)] ++ views fl name numel is). refine (drawn_app w _ _ k l _ l' (drawn_one w _ _ k l a c Ea El Ec) _). rewrite Nat.add_1_r. exact D.
      + rewrite <- app_assoc. reflexivity.
      + cbn [length]. lia.
  Qed.
  Lemma components_complete fl w name numel : forall is l h k, k + length is <= length l ->
    (forall i, In i is -> length (column i fl) = length w /\ exists c, kde (column i fl) w = Ok c) ->
    exists st, plot_components kde fl w name numel is (l, h, k) = (st, Ok tt).
  Proof.
    induction is as [|i is IH]; intros l h k Hl H; cbn [plot_components]; [eexists; reflexivity|]. cbn [length] in Hl.
    destruct (nth_error l k) as [a|] eqn:Ea; [|apply nth_error_None in Ea; lia]. unfold do_plot. destruct (H i (or_introl eq_refl)) as (El & c & Ec). rewrite El, Nat.eqb_refl, Ec. cbn [bind].
    apply IH; [|intros j Hj; apply H; now right].
    replace (length (replace_nth k _ l)) with (length l); [lia|]. symmetry. exact (proj1 (drawn_one w (title_of name numel i) (column i fl) k l a c Ea El Ec)).
  Qed.

  Variable ch : choice.
  Definition labelled (p : param) (i : nat) : string * list xf := (title_of (p_name p) (size ch p) i, marginal ch p i).
  Definition labelled_all (ps : list param) : list (string * list xf) := map (fun q => labelled (fst q) (snd q)) (components ch ps).
  Lemma labelled_length ps : length (labelled_all ps) = length (components ch ps). Proof. unfold labelled_all. now rewrite map_length. Qed.
  Lemma labelled_cons p ps : labelled_all (p :: ps) = map (labelled p) (seq 0 (size ch p)) ++ labelled_all ps.
  Proof. unfold labelled_all, components. cbn [flat_map]. rewrite map_app, map_map. reflexivity. Qed.

  Definition scaled (p : param) : list (list xf) := if asked ch (p_name p) then p_rows p else get_unconstrained (p_prior p) (p_rows p).
  Lemma scaled_view p : sized p -> view_rows (size ch p) (scaled p) = if size ch p =? 0 then Raise RuntimeError else Ok (scaled p).
  Proof.
    intros H. apply view_rows_spec. unfold scaled, size. destruct (asked ch (p_name p)); [intros x Hx; apply (H x Hx)|]. intros x Hx. apply in_map_iff in Hx. destruct Hx as (y & <- & Hy). apply (H y Hy).
  Qed.
  Lemma scaled_column p i : column i (scaled p) = marginal ch p i.
  Proof. unfold column, scaled, marginal, on_scale, get_unconstrained. destruct (asked ch (p_name p)); [reflexivity|]. now rewrite map_map. Qed.
  Lemma scaled_views p : views (scaled p) (p_name p) (size ch p) (seq 0 (size ch p)) = map (labelled p) (seq 0 (size ch p)).
  Proof. apply map_ext. intros i. unfold labelled. now rewrite scaled_column. Qed.

  Lemma parameters_drawn d w : forall ps l h k l' h' k', (forall p, In p ps -> lookup d (p_name p) = Ok (asked ch (p_name p))) -> Forall sized ps ->
    plot_parameters kde d w ps (l, h, k) = ((l', h', k'), Ok tt) ->
    drawn w (labelled_all ps) k l l' /\ h' = h ++ seq k (length (components ch ps)) /\ k' = k + length (components ch ps).
  Proof.
    induction ps as [|p ps IH]; intros l h k l' h' k' Hd Hs; cbn [plot_parameters].
    - intros Eq. injection Eq as <- <- <-. cbn. rewrite app_nil_r. split; [apply drawn_nil|]. split; [reflexivity|lia].
    - rewrite (Hd p) by now left. inversion Hs as [|? ? S1 S2]; subst. fold (size ch p). change (get_numel (p_prior p) (asked ch (p_name p))) with (size ch p). fold (scaled p). rewrite (scaled_view p S1).
      destruct (size ch p =? 0) eqn:E0; [discriminate|]. destruct (plot_components kde (scaled p) w (p_name p) (size ch p) (seq 0 (size ch p)) (l, h, k)) as [[[l1 h1] k1] x] eqn:Ec. destruct x as [[]|e]; [|discriminate].
      destruct (components_drawn _ _ _ _ _ _ _ _ _ _ _ Ec) as (D & -> & ->). rewrite scaled_views in D. rewrite seq_length. intros Eq. destruct (IH _ _ _ _ _ _ (fun q Hq => Hd q (or_intror Hq)) S2 Eq) as (D2 & -> & ->).
      assert (Ln : length (components ch (p :: ps)) = size ch p + length (components ch ps)) by (unfold components; cbn [flat_map]; now rewrite app_length, map_length, seq_length).
      rewrite Ln. split; [|split].
      + rewrite labelled_cons. apply (drawn_app w _ _ k l l1 l' D). rewrite map_length, seq_length. exact D2.
      + rewrite <- app_assoc, seq_app. reflexivity.
      + lia.
  Qed.
  Lemma parameters_complete d w : forall ps l h k, (forall p, In p ps -> lookup d (p_name p) = Ok (asked ch (p_name p))) -> Forall sized ps ->
    Forall (fun p => 0 < size ch p /\ length (p_rows p) = length w) ps -> k + length (components ch ps) <= length l ->
    (forall p i, In (p, i) (components ch ps) -> exists c, kde (marginal ch p i) w = Ok c) -> exists st, plot_parameters kde d w ps (l, h, k) = (st, Ok tt).
  Proof.
    induction ps as [|p ps IH]; intros l h k Hd Hs Hp Hl Hk; cbn [plot_parameters]; [eexists; reflexivity|].
    rewrite (Hd p) by now left. inversion Hs as [|? ? S1 S2]; subst. inversion Hp as [|? ? [P1 P2] P3]; subst. change (get_numel (p_prior p) (asked ch (p_name p))) with (size ch p). fold (scaled p). rewrite (scaled_view p S1).
    destruct (size ch p =? 0) eqn:E0; [apply Nat.eqb_eq in E0; lia|].
    assert (Ln : length (components ch (p :: ps)) = size ch p + length (components ch ps)) by (unfold components; cbn [flat_map]; now rewrite app_length, map_length, seq_length). rewrite Ln in Hl.
    destruct (components_complete (scaled p) w (p_name p) (size ch p) (seq 0 (size ch p)) l h k) as [[[l1 h1] k1] Ec].
    - rewrite seq_length. lia.
    - intros i Hi. rewrite scaled_column. split; [unfold marginal; now rewrite map_length|]. apply Hk. unfold components. cbn [flat_map]. apply in_or_app. left. now apply in_map.
    - rewrite Ec. destruct (components_drawn _ _ _ _ _ _ _ _ _ _ _ Ec) as ((Le & _) & _ & ->). apply (IH l1 h1 _ (fun q Hq => Hd q (or_intror Hq)) S2 P3).
      + rewrite seq_length, Le. lia.
      + intros q i Hq. apply Hk. unfold components. cbn [flat_map]. apply in_or_app. now right.
  Qed.

  Lemma existsb_seq i m : existsb (Nat.eqb i) (seq 0 m) = (i <? m).
  Proof.
    apply eq_true_iff_eq. rewrite existsb_exists, Nat.ltb_lt. split.
    - intros (x & Hx & E). apply in_seq in Hx. apply Nat.eqb_eq in E. lia.
    - intros H. exists i. split; [apply in_seq; lia|apply Nat.eqb_refl].
  Qed.
  Lemma nth_error_combine_seq {A} (l : list A) : forall s i, nth_error (combine (seq s (length l)) l) i = option_map (pair (s + i)) (nth_error l i).
  Proof. induction l as [|x l IH]; intros s [|i]; cbn; try reflexivity. - now rewrite Nat.add_0_r. - rewrite IH. now rewrite Nat.add_succ_r. Qed.
  Lemma switch_off_nth m (l : list (axis C)) i a : nth_error l i = Some a ->
    nth_error (switch_off (seq 0 m) l) i = Some (if i <? m then a else Axis (ax_curves a) (ax_title a) false).
  Proof.
    intros H. unfold switch_off. rewrite nth_error_map, nth_error_combine_seq, H. cbn [option_map fst snd Nat.add]. now rewrite existsb_seq.
  Qed.
  Lemma switch_off_length h (l : list (axis C)) : length (switch_off h l) = length l.
  Proof. unfold switch_off. now rewrite map_length, combine_length, seq_length, Nat.min_id. Qed.

  Lemma ceil_enough total cols : 0 < cols -> total <= (total + cols - 1) / cols * cols.
  Proof.
    intros H. pose proof (Nat.div_mod (total + cols - 1) cols ltac:(lia)) as E. pose proof (Nat.mod_upper_bound (total + cols - 1) cols ltac:(lia)) as B. rewrite (Nat.mul_comm cols) in E. lia.
  Qed.
End Draw.
