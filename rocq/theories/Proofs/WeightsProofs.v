From Coq Require Import Reals List Bool Lra Lia Psatz Permutation.
From Verif.Model Require Import Base Xf Weights.
From Verif.Spec Require Import WeightsSpec.
Import ListNotations.
Open Scope R_scope.

(** * Real sums *)

Lemma Rsum_app l r : Rsum (l ++ r) = Rsum l + Rsum r.
Proof. unfold Rsum. induction l; simpl; lra. Qed.

Lemma Rsum_perm l r : Permutation l r -> Rsum l = Rsum r.
Proof. unfold Rsum. induction 1; simpl; lra. Qed.

Lemma Rsum_nonneg l : (forall x, In x l -> 0 <= x) -> 0 <= Rsum l.
Proof.
  unfold Rsum. induction l as [|a l IH]; simpl; [lra|]. intros H.
  pose proof (H a (or_introl eq_refl)). specialize (IH (fun x Hx => H x (or_intror Hx))). lra.
Qed.

Lemma Rsum_pos l : (forall x, In x l -> 0 <= x) -> (exists x, In x l /\ 0 < x) -> 0 < Rsum l.
Proof.
  unfold Rsum. induction l as [|a l IH]; simpl; intros H (x & Hx & Hp); [contradiction|].
  pose proof (H a (or_introl eq_refl)) as Ha.
  pose proof (Rsum_nonneg l (fun x Hx => H x (or_intror Hx))) as Hl. unfold Rsum in Hl.
  destruct Hx as [->|Hx]; [lra|].
  specialize (IH (fun x Hx => H x (or_intror Hx)) (ex_intro _ x (conj Hx Hp))). lra.
Qed.

Lemma Rsum_zero l : (forall x, In x l -> 0 <= x) -> Rsum l = 0 -> forall x, In x l -> x = 0.
Proof.
  intros Hn Hs x Hx. pose proof (Hn x Hx) as H.
  destruct (Req_dec x 0) as [|Hne]; [assumption|]. exfalso.
  assert (0 < Rsum l) by (apply Rsum_pos; [assumption|exists x; split; [assumption|lra]]). lra.
Qed.

Lemma Rsum_map_ext {A} (f g : A -> R) l : (forall x, In x l -> f x = g x) -> Rsum (map f l) = Rsum (map g l).
Proof.
  unfold Rsum. induction l as [|a l IH]; simpl; intros H; [reflexivity|].
  rewrite (H a) by now left. rewrite IH; [reflexivity|]. intros; apply H; now right.
Qed.

Lemma Rsum_map_scale {A} (f : A -> R) c l : Rsum (map (fun x => c * f x) l) = c * Rsum (map f l).
Proof. unfold Rsum. induction l; simpl; lra. Qed.

Lemma Rsum_map_plus {A} (f g : A -> R) l :
  Rsum (map (fun x => f x + g x) l) = Rsum (map f l) + Rsum (map g l).
Proof. unfold Rsum. induction l; simpl; lra. Qed.

Lemma Rsum_map_const {A} (l : list A) c : Rsum (map (fun _ => c) l) = INR (length l) * c.
Proof.
  unfold Rsum. induction l as [|a l IH]; [simpl; lra|].
  rewrite map_cons. cbn [fold_right length]. rewrite S_INR, IH. lra.
Qed.

Lemma Rsum_map_le {A} (f g : A -> R) l : (forall x, In x l -> f x <= g x) -> Rsum (map f l) <= Rsum (map g l).
Proof.
  unfold Rsum. induction l as [|a l IH]; simpl; intros H; [lra|].
  pose proof (H a (or_introl eq_refl)). specialize (IH (fun x Hx => H x (or_intror Hx))). lra.
Qed.

Lemma Rsum_ge_elem l x : (forall x, In x l -> 0 <= x) -> In x l -> x <= Rsum l.
Proof.
  unfold Rsum. induction l as [|a l IH]; simpl; intros H; [tauto|].
  pose proof (H a (or_introl eq_refl)) as Ha.
  pose proof (Rsum_nonneg l (fun x Hx => H x (or_intror Hx))) as Hl. unfold Rsum in Hl.
  intros [->|Hx]; [lra|]. specialize (IH (fun x Hx => H x (or_intror Hx)) Hx). lra.
Qed.

Lemma prob_vec_nonempty p : prob_vec p -> p <> [].
Proof. intros [_ H] ->. unfold Rsum in H; simpl in H; lra. Qed.

Lemma prob_vec_some_pos p : prob_vec p -> exists x, In x p /\ 0 < x.
Proof.
  intros [Hn Hs]. destruct (Exists_dec (fun x => 0 < x) p) as [H|H].
  - intros x. destruct (Rlt_dec 0 x); [now left|now right].
  - apply Exists_exists in H. destruct H as (x & H1 & H2). now exists x.
  - exfalso. assert (E : Rsum p = Rsum (map (fun _ => 0) p)).
    { rewrite <- (map_id p) at 1. apply Rsum_map_ext. intros x Hx. pose proof (Hn x Hx).
      destruct (Rlt_dec 0 x); [|lra]. exfalso; apply H, Exists_exists. now exists x. }
    rewrite E, Rsum_map_const in Hs. lra.
Qed.

(** * Extended values *)

Lemma rsign_pos x : 0 < x -> rsign x = Gt.
Proof. unfold rsign. destruct (total_order_T x 0) as [[|]|]; intros; lra || reflexivity. Qed.
Lemma rsign_zero : rsign 0 = Eq.
Proof. unfold rsign. destruct (total_order_T 0 0) as [[|]|]; lra || reflexivity. Qed.
Lemma rsign_neg x : x < 0 -> rsign x = Lt.
Proof. unfold rsign. destruct (total_order_T x 0) as [[|]|]; intros; lra || reflexivity. Qed.

Lemma xsum_fin l : xsum (map Fin l) = Fin (Rsum l).
Proof. unfold xsum, Rsum. induction l as [|a l IH]; simpl; [reflexivity|]. now rewrite IH. Qed.

Lemma xsum_map_fin {A} (f : A -> xf) (g : A -> R) l :
  (forall x, In x l -> f x = Fin (g x)) -> xsum (map f l) = Fin (Rsum (map g l)).
Proof.
  intros H. rewrite <- xsum_fin, map_map. f_equal. apply map_ext_in. exact H.
Qed.

Lemma xsum_nan l : In NaN l -> xsum l = NaN.
Proof.
  unfold xsum. induction l as [|a l IH]; simpl; [tauto|].
  intros [->|H]; [reflexivity|]. rewrite (IH H). destruct a; reflexivity.
Qed.

Lemma xmaxl_nan l : In NaN l -> xmaxl l = NaN.
Proof.
  unfold xmaxl. induction l as [|a l IH]; simpl; [tauto|].
  intros [->|H]; [reflexivity|]. rewrite (IH H). destruct a; reflexivity.
Qed.

(** Sanitised entries: finite or -inf. *)
Definition clean (x : xf) : Prop := match x with Fin _ | NInf => True | _ => False end.

Lemma xmaxl_clean w : (forall x, In x w -> clean x) ->
  (xmaxl w = NInf /\ forall x, In x w -> x = NInf) \/
  (exists m, xmaxl w = Fin m /\ In (Fin m) w /\ forall r, In (Fin r) w -> r <= m).
Proof.
  unfold xmaxl. induction w as [|a w IH]; simpl; intros H; [left; split; [reflexivity|tauto]|].
  pose proof (H a (or_introl eq_refl)) as Ha.
  specialize (IH (fun x Hx => H x (or_intror Hx))).
  destruct a as [r| | |]; simpl in Ha; try tauto.
  - right. destruct IH as [[E Hall]|(m & E & Hin & Hmax)]; rewrite E; simpl.
    + exists r. split; [reflexivity|]. split; [now left|].
      intros q [[= <-]|Hq]; [lra|]. apply Hall in Hq; discriminate.
    + destruct (Rlt_dec r m).
      * exists m. split; [reflexivity|]. split; [now right|]. intros q [[= <-]|Hq]; [lra|auto].
      * exists r. split; [reflexivity|]. split; [now left|].
        intros q [[= <-]|Hq]; [lra|]. apply Hmax in Hq. lra.
  - destruct IH as [[E Hall]|(m & E & Hin & Hmax)]; rewrite E; simpl.
    + left. split; [reflexivity|]. intros x [<-|Hx]; auto.
    + right. exists m. split; [reflexivity|]. split; [now right|]. intros q [[=]|Hq]; auto.
Qed.

Definition cmass (x : xf) : R := match x with Fin r => exp r | _ => 0 end.

Lemma cmass_nonneg x : 0 <= cmass x.
Proof. destruct x; simpl; try lra. left; apply exp_pos. Qed.

Lemma cmass_sum_pos w r : In (Fin r) w -> 0 < Rsum (map cmass w).
Proof.
  intros H. apply Rsum_pos.
  - intros x Hx. apply in_map_iff in Hx. destruct Hx as (y & <- & _). apply cmass_nonneg.
  - exists (exp r). split; [|apply exp_pos]. apply in_map_iff. now exists (Fin r).
Qed.

(** exp of the shifted entries, whatever finite shift is used. *)
Lemma exp_shift x s : clean x -> xexp (xsub x (Fin s)) = Fin (exp (- s) * cmass x).
Proof.
  destruct x; simpl; try tauto; intros _.
  - rewrite <- exp_plus. do 2 f_equal. lra.
  - now rewrite Rmult_0_r.
Qed.

Lemma softmax_clean w r :
  (forall x, In x w -> clean x) -> In (Fin r) w ->
  softmax w = map (fun x => Fin (cmass x / Rsum (map cmass w))) w.
Proof.
  intros Hc Hr. unfold softmax.
  destruct (xmaxl_clean w Hc) as [[_ Hall]|(m & -> & _ & _)]; [apply Hall in Hr; discriminate|].
  rewrite (xsum_map_fin _ (fun x => exp (- m) * cmass x)) by (intros; apply exp_shift; auto).
  rewrite map_map. apply map_ext_in. intros x Hx. rewrite exp_shift by auto.
  rewrite Rsum_map_scale. simpl.
  pose proof (cmass_sum_pos w r Hr) as Hp. pose proof (exp_pos (- m)) as He.
  destruct (Req_EM_T (exp (- m) * Rsum (map cmass w)) 0) as [E|_].
  - apply Rmult_integral in E. lra.
  - f_equal. field. split; lra.
Qed.

Lemma shifted_softmax_clean w r :
  (forall x, In x w -> clean x) -> In (Fin r) w ->
  shifted_softmax w = map (fun x => Fin (cmass x / Rsum (map cmass w))) w.
Proof.
  intros Hc Hr. unfold shifted_softmax.
  destruct (xmaxl_clean w Hc) as [[_ Hall]|(m & -> & _ & _)]; [apply Hall in Hr; discriminate|].
  rewrite (softmax_clean _ (r - m)).
  - rewrite !map_map. apply map_ext_in. intros x Hx.
    assert (E : forall y, In y w -> cmass (xsub y (Fin m)) = exp (- m) * cmass y).
    { intros y Hy. specialize (Hc y Hy). destruct y; simpl in *; try tauto; try lra.
      rewrite <- exp_plus. f_equal. lra. }
    rewrite (E x Hx). rewrite (Rsum_map_ext (fun y => cmass (xsub y (Fin m))) _ w E).
    rewrite Rsum_map_scale. f_equal.
    pose proof (cmass_sum_pos w r Hr) as Hp. pose proof (exp_pos (- m)) as He.
    field. split; lra.
  - intros x Hx. apply in_map_iff in Hx. destruct Hx as (y & <- & Hy). specialize (Hc y Hy).
    destruct y; simpl in *; tauto.
  - apply in_map_iff. exists (Fin r). split; [reflexivity|assumption].
Qed.

Lemma shifted_softmax_dead w :
  w <> [] -> (forall x, In x w -> x = NInf) -> shifted_softmax w = map (fun _ => NaN) w.
Proof.
  intros Hne Hall. unfold shifted_softmax.
  assert (E : map (fun x => xsub x (xmaxl w)) w = map (fun _ => NaN) w).
  { apply map_ext_in. intros x Hx. rewrite (Hall x Hx).
    assert (Em : xmaxl w = NInf).
    { destruct (xmaxl_clean w) as [[E _]|(m & _ & Hin & _)]; [|exact E|].
      - intros y Hy. rewrite (Hall y Hy). exact I.
      - apply Hall in Hin. discriminate. }
    now rewrite Em. }
  rewrite E. unfold softmax. rewrite !map_map. apply map_ext. intros x.
  destruct w as [|a w]; [congruence|]. rewrite xmaxl_nan by (left; reflexivity).
  simpl. reflexivity.
Qed.

Section Normalize.
  Variable lowest : R.
  Notation nan_to_num := (nan_to_num lowest).
  Notation normalize := (normalize lowest).
  Notation mass := (mass lowest).
  Notation level := (level lowest).

  Notation usable := (usable lowest).

  Lemma nan_to_num_clean x : clean (nan_to_num x).
  Proof. destruct x; exact I. Qed.

  Lemma mass_clean x : mass x = cmass (nan_to_num x).
  Proof. destruct x; reflexivity. Qed.

  Lemma mass_nonneg x : 0 <= mass x.
  Proof. rewrite mass_clean. apply cmass_nonneg. Qed.

  Lemma mass_pos x : usable x -> 0 < mass x.
  Proof. intros [r H]. unfold WeightsSpec.mass. rewrite H. apply exp_pos. Qed.

  Definition total (ws : list xf) : R := Rsum (map mass ws).

  Lemma total_pos ws : (exists x, In x ws /\ usable x) -> 0 < total ws.
  Proof.
    intros (x & Hx & Hu). apply Rsum_pos.
    - intros y Hy. apply in_map_iff in Hy. destruct Hy as (z & <- & _). apply mass_nonneg.
    - exists (mass x). split; [now apply in_map|now apply mass_pos].
  Qed.

  Lemma normalize_usable ws : (exists x, In x ws /\ usable x) ->
    normalize ws = Ok (map (fun x => Fin (mass x / total ws)) ws, map nan_to_num ws).
  Proof.
    intros Hex. pose proof (total_pos ws Hex) as Hp. destruct Hex as (x & Hx & r & Hr).
    unfold Weights.normalize. destruct ws as [|a ws']; [contradiction|]. set (ws := a :: ws') in *.
    assert (Ein : In (Fin r) (map nan_to_num ws)).
    { apply in_map_iff. exists x. split; [|exact Hx]. destruct x; simpl in Hr; try discriminate; now injection Hr as <-. }
    rewrite (shifted_softmax_clean _ r); [|intros y Hy; apply in_map_iff in Hy; destruct Hy as (z & <- & _); apply nan_to_num_clean|exact Ein].
    assert (Etot : Rsum (map cmass (map nan_to_num ws)) = total ws).
    { rewrite map_map. unfold total. apply Rsum_map_ext. intros; symmetry; apply mass_clean. }
    rewrite Etot, map_map.
    rewrite (xsum_map_fin (fun x0 => Fin (cmass (nan_to_num x0) / total ws)) (fun x0 => / total ws * mass x0)).
    2:{ intros y _. rewrite mass_clean. f_equal. field. lra. }
    rewrite Rsum_map_scale. fold (total ws). rewrite Rinv_l by lra.
    simpl xeq. destruct (Req_EM_T 1 0); [lra|].
    do 2 f_equal. apply map_ext. intros y. now rewrite mass_clean.
  Qed.

  Lemma normalize_dead ws : ws <> [] -> (forall x, In x ws -> ~ usable x) ->
    normalize ws = Ok (map (fun _ => NaN) ws, map (fun _ => NInf) ws).
  Proof.
    intros Hne Hall. unfold Weights.normalize. destruct ws as [|a ws']; [congruence|]. set (ws := a :: ws') in *.
    assert (E : map nan_to_num ws = map (fun _ => NInf) ws).
    { apply map_ext_in. intros x Hx. specialize (Hall x Hx). destruct x; simpl; try reflexivity; exfalso; apply Hall; eexists; reflexivity. }
    rewrite E. rewrite shifted_softmax_dead.
    - rewrite map_map. rewrite xsum_nan by (left; reflexivity). reflexivity.
    - discriminate.
    - intros x Hx. apply in_map_iff in Hx. now destruct Hx as (y & <- & _).
  Qed.

  Lemma usable_dec_list ws : (exists x, In x ws /\ usable x) \/ (forall x, In x ws -> ~ usable x).
  Proof.
    induction ws as [|a ws [IH|IH]].
    - right. intros x [].
    - left. destruct IH as (x & H1 & H2). exists x. split; [now right|exact H2].
    - destruct a as [r| | |].
      + left. exists (Fin r). split; [now left|now exists r].
      + right. intros x [<-|Hx]; [intros [r Hr]; discriminate|auto].
      + left. exists NInf. split; [now left|now exists lowest].
      + right. intros x [<-|Hx]; [intros [r Hr]; discriminate|auto].
  Qed.

  (** The masked fill never happens. *)
  Lemma fallback_dead ws : ws <> [] ->
    xeq (xsum (shifted_softmax (map nan_to_num ws))) (Fin 0) = false.
  Proof.
    intros Hne. destruct (usable_dec_list ws) as [Hex|Hall].
    - pose proof (total_pos ws Hex) as Hp. destruct Hex as (x & Hx & r & Hr).
      rewrite (shifted_softmax_clean _ r).
      2:{ intros y Hy; apply in_map_iff in Hy; destruct Hy as (z & <- & _); apply nan_to_num_clean. }
      2:{ apply in_map_iff. exists x. split; [|exact Hx]. destruct x; simpl in Hr; try discriminate; now injection Hr as <-. }
      assert (Etot : Rsum (map cmass (map nan_to_num ws)) = total ws).
      { rewrite map_map. unfold total. apply Rsum_map_ext. intros; symmetry; apply mass_clean. }
      rewrite Etot, map_map.
      rewrite (xsum_map_fin (fun x0 => Fin (cmass (nan_to_num x0) / total ws)) (fun x0 => / total ws * mass x0)).
      2:{ intros y _. rewrite mass_clean. f_equal. field. lra. }
      rewrite Rsum_map_scale. fold (total ws). rewrite Rinv_l by lra. simpl. destruct (Req_EM_T 1 0); [lra|reflexivity].
    - rewrite shifted_softmax_dead.
      + destruct ws; [congruence|]. reflexivity.
      + intros H. apply Hne. now apply map_eq_nil in H.
      + intros x Hx. apply in_map_iff in Hx. destruct Hx as (y & <- & Hy). specialize (Hall y Hy).
        destruct y; simpl; try reflexivity; exfalso; apply Hall; eexists; reflexivity.
  Qed.

  Lemma normalize_shape ws : ws <> [] ->
    exists out arg, normalize ws = Ok (out, arg) /\ length out = length ws /\ arg = map nan_to_num ws.
  Proof.
    intros Hne. destruct (usable_dec_list ws) as [Hex|Hall].
    - rewrite normalize_usable by exact Hex. eexists _, _. split; [reflexivity|]. split; [now rewrite map_length|reflexivity].
    - rewrite normalize_dead by assumption. eexists _, _. split; [reflexivity|]. split; [now rewrite map_length|].
      apply map_ext_in. intros x Hx. specialize (Hall x Hx).
      destruct x; simpl; try reflexivity; exfalso; apply Hall; eexists; reflexivity.
  Qed.

  Lemma normalize_simplex ws : (exists x, In x ws /\ usable x) -> exists ps,
    normalize ws = Ok (map Fin ps, map nan_to_num ws) /\ length ps = length ws /\ prob_vec ps /\
    (forall i x p, nth_error ws i = Some x -> nth_error ps i = Some p ->
       (level x = None -> p = 0) /\
       (forall r, level x = Some r -> 0 < p /\
          forall j y q s, nth_error ws j = Some y -> nth_error ps j = Some q -> level y = Some s ->
             p * exp s = q * exp r)).
  Proof.
    intros Hex. pose proof (total_pos ws Hex) as Hp.
    exists (map (fun x => mass x / total ws) ws). split; [|split; [|split]].
    - rewrite normalize_usable by exact Hex. now rewrite map_map.
    - apply map_length.
    - split.
      + intros p Hin. apply in_map_iff in Hin. destruct Hin as (x & <- & _).
        apply Rmult_le_pos; [apply mass_nonneg|]. left. now apply Rinv_0_lt_compat.
      + rewrite (Rsum_map_ext _ (fun x => / total ws * mass x)) by (intros; field; lra).
        rewrite Rsum_map_scale. fold (total ws). field. lra.
    - intros i x p Hi Hpi. rewrite nth_error_map, Hi in Hpi. injection Hpi as <-. split.
      + intros Hl. unfold WeightsSpec.mass. rewrite Hl. lra.
      + intros r Hl. split.
        * apply Rmult_lt_0_compat; [apply mass_pos; now exists r|now apply Rinv_0_lt_compat].
        * intros j y q s Hj Hq Hs. rewrite nth_error_map, Hj in Hq. injection Hq as <-.
          unfold WeightsSpec.mass. rewrite Hl, Hs. field. lra.
  Qed.

  Lemma normalize_perm ws ws' : Permutation ws ws' -> ws <> [] -> exists f,
    normalize ws = Ok (map f ws, map nan_to_num ws) /\ normalize ws' = Ok (map f ws', map nan_to_num ws').
  Proof.
    intros Hp Hne.
    assert (Hne' : ws' <> []) by (intros ->; apply Permutation_sym, Permutation_nil in Hp; congruence).
    assert (Etot : total ws = total ws') by (apply Rsum_perm, Permutation_map, Hp).
    destruct (usable_dec_list ws) as [Hex|Hall].
    - exists (fun x => Fin (mass x / total ws)). split; [now apply normalize_usable|].
      rewrite Etot. apply normalize_usable. destruct Hex as (x & H1 & H2). exists x. split; [|exact H2].
      eapply Permutation_in; eassumption.
    - assert (Hall' : forall x, In x ws' -> ~ usable x).
      { intros x Hx. apply Hall. eapply Permutation_in; [apply Permutation_sym|]; eassumption. }
      assert (Hdead : forall l, (forall x, In x l -> ~ usable x) ->
        map (fun _ => NInf) l = map nan_to_num l).
      { intros l Hl. apply map_ext_in. intros x Hx. specialize (Hl x Hx).
        destruct x; simpl; try reflexivity; exfalso; apply Hl; eexists; reflexivity. }
      exists (fun _ => NaN). rewrite !normalize_dead by assumption. split; do 2 f_equal; now apply Hdead.
  Qed.

  Lemma exp_sum_pos rs : rs <> [] -> 0 < Rsum (map exp rs).
  Proof.
    intros Hne. apply Rsum_pos.
    - intros y Hy. apply in_map_iff in Hy. destruct Hy as (z & <- & _). left; apply exp_pos.
    - destruct rs as [|r0 rs]; [congruence|]. exists (exp r0). split; [now left|apply exp_pos].
  Qed.

  Lemma normalize_fin rs : rs <> [] ->
    normalize (map Fin rs) = Ok (map (fun r => Fin (exp r / Rsum (map exp rs))) rs, map Fin rs).
  Proof.
    intros Hne. rewrite normalize_usable.
    - unfold total. rewrite !map_map. reflexivity.
    - destruct rs as [|r0 rs]; [congruence|]. exists (Fin r0). split; [now left|now exists r0].
  Qed.

  Lemma normalize_shift rs c : rs <> [] -> exists out,
    normalize (map Fin rs) = Ok (out, map Fin rs) /\
    normalize (map (fun r => Fin (r + c)) rs) = Ok (out, map (fun r => Fin (r + c)) rs).
  Proof.
    intros Hne. eexists. split; [now apply normalize_fin|].
    rewrite <- (map_map (fun r => r + c) Fin). rewrite normalize_fin.
    2:{ intros H. apply map_eq_nil in H. congruence. }
    rewrite !map_map. do 2 f_equal. apply map_ext. intros r. f_equal.
    rewrite (Rsum_map_ext (fun x => exp (x + c)) (fun x => exp c * exp x)) by (intros; rewrite exp_plus; lra).
    rewrite Rsum_map_scale, exp_plus. pose proof (exp_sum_pos rs Hne). pose proof (exp_pos c).
    field. split; lra.
  Qed.

  (** Second call. *)
  Lemma level_twice x : level (nan_to_num x) = Some (match level x with Some r => r | None => lowest end).
  Proof. destruct x; reflexivity. Qed.

  Lemma normalize_again_usable ws : ws <> [] -> (forall x, In x ws -> usable x) ->
    exists out, normalize ws = Ok (out, map nan_to_num ws) /\
                normalize (map nan_to_num ws) = Ok (out, map nan_to_num ws).
  Proof.
    intros Hne Hall. destruct ws as [|a ws']; [congruence|]. set (ws := a :: ws') in *.
    assert (Hu : forall x, In x ws -> nan_to_num x = nan_to_num (nan_to_num x) /\ mass (nan_to_num x) = mass x).
    { intros x Hx. destruct (Hall x Hx) as [r Hr]. destruct x; simpl in Hr; try discriminate; split; reflexivity. }
    eexists. split.
    - apply normalize_usable. exists a. split; [now left|]. apply Hall; now left.
    - rewrite normalize_usable.
      + rewrite !map_map. do 2 f_equal.
        * apply map_ext_in. intros x Hx. rewrite (proj2 (Hu x Hx)). do 2 f_equal.
          unfold total. rewrite map_map. apply Rsum_map_ext. intros y Hy. apply Hu, Hy.
        * apply map_ext_in. intros x Hx. symmetry. apply Hu, Hx.
      + exists (nan_to_num a). split; [now left|]. eexists. apply level_twice.
  Qed.

  Lemma normalize_second ws : ws <> [] ->
    normalize (map nan_to_num ws) =
    Ok (map (fun x => Fin (mass (nan_to_num x) / Rsum (map (fun y => mass (nan_to_num y)) ws))) ws,
        map (fun x => nan_to_num (nan_to_num x)) ws).
  Proof.
    intros Hne. destruct ws as [|a ws']; [congruence|]. set (ws := a :: ws') in *.
    rewrite normalize_usable.
    - unfold total. rewrite !map_map. reflexivity.
    - exists (nan_to_num a). split; [now left|]. eexists. apply level_twice.
  Qed.

  (** With unusable entries the first and the second answer differ by at most n exp(lowest - r), for any usable level r. *)
  Lemma normalize_again_bound ws x0 r0 : In x0 ws -> level x0 = Some r0 -> exists ps qs,
    normalize ws = Ok (map Fin ps, map nan_to_num ws) /\
    (exists arg, normalize (map nan_to_num ws) = Ok (map Fin qs, arg)) /\
    length ps = length ws /\ length qs = length ws /\
    forall i p q, nth_error ps i = Some p -> nth_error qs i = Some q ->
      Rabs (q - p) <= INR (length ws) * exp (lowest - r0).
  Proof.
    intros Hx0 Hr0.
    assert (Hex : exists x, In x ws /\ usable x) by (exists x0; split; [assumption|now exists r0]).
    assert (Hne : ws <> []) by (intros ->; contradiction).
    pose proof (total_pos ws Hex) as HS. set (S := total ws) in *.
    set (S2 := Rsum (map (fun y => mass (nan_to_num y)) ws)).
    assert (Hdiff : S2 - S = Rsum (map (fun y => mass (nan_to_num y) - mass y) ws)).
    { unfold S2, S, total. rewrite (Rsum_map_ext (fun y => mass (nan_to_num y) - mass y)
        (fun y => mass (nan_to_num y) + (-1) * mass y)) by (intros; lra).
      rewrite Rsum_map_plus, Rsum_map_scale. lra. }
    assert (Hd : forall y, 0 <= mass (nan_to_num y) - mass y <= exp lowest).
    { intros y. pose proof (exp_pos lowest). destruct y; unfold WeightsSpec.mass; simpl; lra. }
    assert (HS2 : S <= S2 <= S + INR (length ws) * exp lowest).
    { split.
      - assert (0 <= S2 - S); [|lra]. rewrite Hdiff. apply Rsum_nonneg.
        intros z Hz. apply in_map_iff in Hz. destruct Hz as (y & <- & _). apply Hd.
      - assert (S2 - S <= INR (length ws) * exp lowest); [|lra]. rewrite Hdiff, <- Rsum_map_const.
        apply Rsum_map_le. intros; apply Hd. }
    assert (HSr : exp r0 <= S).
    { unfold S, total. apply Rsum_ge_elem.
      - intros z Hz. apply in_map_iff in Hz. destruct Hz as (y & <- & _). apply mass_nonneg.
      - apply in_map_iff. exists x0. split; [|exact Hx0]. unfold WeightsSpec.mass. now rewrite Hr0. }
    exists (map (fun x => mass x / S) ws), (map (fun x => mass (nan_to_num x) / S2) ws).
    split; [rewrite normalize_usable by exact Hex; now rewrite map_map|].
    split; [eexists; rewrite normalize_second by exact Hne; now rewrite map_map|].
    split; [apply map_length|]. split; [apply map_length|].
    intros i p q Hp Hq. rewrite nth_error_map in Hp, Hq.
    destruct (nth_error ws i) as [x|] eqn:Ex; [|discriminate]. injection Hp as <-. injection Hq as <-.
    set (n := INR (length ws)) in *. set (e := exp lowest) in *.
    assert (He : 0 < e) by apply exp_pos.
    assert (Hn1 : 1 <= n).
    { unfold n. destruct ws; [congruence|]. cbn [length]. rewrite S_INR. pose proof (pos_INR (length ws)). lra. }
    replace (n * exp (lowest - r0)) with (n * e / exp r0).
    2:{ unfold Rminus. rewrite exp_plus, exp_Ropp. unfold e. field. pose proof (exp_pos r0). lra. }
    pose proof (exp_pos r0) as Hr0p.
    assert (Hbound : n * e / S <= n * e / exp r0).
    { unfold Rdiv. apply Rmult_le_compat_l; [nra|]. apply Rinv_le_contravar; lra. }
    eapply Rle_trans; [|exact Hbound].
    assert (Hmx : 0 <= mass x <= S).
    { split; [apply mass_nonneg|]. unfold S, total. apply Rsum_ge_elem.
      - intros z Hz. apply in_map_iff in Hz. destruct Hz as (y & <- & _). apply mass_nonneg.
      - apply in_map_iff. exists x. split; [reflexivity|]. eapply nth_error_In; eassumption. }
    assert (HS2p : 0 < S2) by lra.
    assert (Hcase : mass (nan_to_num x) = mass x \/ (mass x = 0 /\ mass (nan_to_num x) = e)).
    { destruct x; unfold WeightsSpec.mass; simpl; auto. }
    destruct Hcase as [->|[-> ->]].
    - replace (mass x / S2 - mass x / S) with (- (mass x * (S2 - S) / (S * S2))) by (field; lra).
      rewrite Rabs_Ropp, Rabs_pos_eq.
      + apply Rmult_le_reg_r with (S * S2); [nra|].
        replace (mass x * (S2 - S) / (S * S2) * (S * S2)) with (mass x * (S2 - S)) by (field; lra).
        replace (n * e / S * (S * S2)) with (S2 * (n * e)) by (field; lra).
        apply Rmult_le_compat; lra.
      + apply Rmult_le_pos; [apply Rmult_le_pos; lra|]. left. apply Rinv_0_lt_compat, Rmult_lt_0_compat; lra.
    - replace (e / S2 - 0 / S) with (e / S2) by (field; lra).
      rewrite Rabs_pos_eq.
      + apply Rmult_le_reg_r with (S * S2); [nra|].
        replace (e / S2 * (S * S2)) with (e * S) by (field; lra).
        replace (n * e / S * (S * S2)) with (e * (n * S2)) by (field; lra).
        apply Rmult_le_compat_l; [lra|]. nra.
      + apply Rmult_le_pos; [lra|]. left. now apply Rinv_0_lt_compat.
  Qed.
End Normalize.
