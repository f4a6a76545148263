(** Lemmas about the particle filter steps. *)
From Coq Require Import Reals List Bool Arith Lia Lra.
From Verif.Model Require Import Base Xf Tensor Weights Particle.
From Verif.Spec Require Import WeightsSpec ParticleSpec.
From Verif.Proofs Require Import WeightsProofs MomentsProofs ResamplingProofs.
Import ListNotations.
Local Open Scope nat_scope.

Lemma length_col {A} (m : mat A) j : length (col m j) = m_rows m.
Proof. unfold col. now rewrite map_length, seq_length. Qed.

Lemma nth_col {A} (m : mat A) i j d : i < m_rows m -> nth i (col m j) d = m_get m i j.
Proof.
  intros Hi. unfold col. rewrite (nth_indep _ d (m_get m 0 j)) by now rewrite map_length, seq_length.
  rewrite (map_nth (fun i => m_get m i j)). now rewrite seq_nth.
Qed.

Lemma col_eq_get {A} (m m' : mat A) j j' : col m j = col m' j' -> m_rows m = m_rows m' ->
  forall i, i < m_rows m -> m_get m i j = m_get m' i j'.
Proof.
  intros H Hr i Hi. rewrite <- (nth_col m i j (m_get m i j) Hi). rewrite H. apply nth_col. lia.
Qed.

Lemma col_ext {A} (m m' : mat A) j j' : m_rows m = m_rows m' ->
  (forall i, i < m_rows m -> m_get m i j = m_get m' i j') -> col m j = col m' j'.
Proof.
  intros Hr H. unfold col. rewrite <- Hr. apply map_ext_in. intros i Hi. apply in_seq in Hi. apply H. lia.
Qed.

Lemma in_col {A} (m : mat A) j x : In x (col m j) <-> exists i, i < m_rows m /\ m_get m i j = x.
Proof.
  unfold col. rewrite in_map_iff. split.
  - intros (i & <- & Hi). apply in_seq in Hi. exists i. split; [lia|reflexivity].
  - intros (i & Hi & <-). exists i. split; [reflexivity|]. apply in_seq. lia.
Qed.

Lemma col_map_mat {A B} (f : A -> B) (m : mat A) j : col (map_mat f m) j = map f (col m j).
Proof. unfold col, map_mat; simpl. now rewrite map_map. Qed.

Lemma col_of_list {A} (n b : nat) (f : nat -> list A) (d : A) j : length (f j) = n ->
  col (Mat n b (fun i j => nth i (f j) d)) j = f j.
Proof.
  intros Hl. unfold col; simpl. rewrite <- Hl at 1. generalize (f j). clear. intros l.
  induction l as [|a l IH]; [reflexivity|]. simpl. f_equal. rewrite <- seq_shift, map_map. exact IH.
Qed.

Lemma col_const {A} (m : mat A) j v : (forall i, i < m_rows m -> m_get m i j = v) -> col m j = repeat v (m_rows m).
Proof.
  intros H. unfold col. rewrite (map_ext_in _ (fun _ => v)).
  - clear. generalize 0 at 1. induction (m_rows m) as [|n IH]; intros s; simpl; [reflexivity|]. now rewrite IH.
  - intros i Hi. apply in_seq in Hi. apply H. lia.
Qed.

Lemma zip_col {A B C} (f : A -> B -> C) (a : mat A) (b : mat B) j : m_rows a = m_rows b ->
  col (zip_mat f a b) j = map (fun p => f (fst p) (snd p)) (combine (col a j) (col b j)).
Proof.
  intros Hr. unfold col, zip_mat; simpl. rewrite <- Hr. generalize (seq 0 (m_rows a)). intros l.
  induction l as [|i l IH]; [reflexivity|]. simpl. now rewrite IH.
Qed.

(** Ranks of selected columns. *)
Lemma rank_S mask j : rank mask (S j) = rank mask j + (if mask j then 1 else 0).
Proof.
  unfold rank. rewrite seq_S, filter_app, app_length. simpl. now destruct (mask j).
Qed.

Lemma rank_mono mask i j : i <= j -> rank mask i <= rank mask j.
Proof. induction 1; [lia|]. rewrite rank_S. destruct (mask m); lia. Qed.

Lemma rank_lt mask j c : j < c -> mask j = true -> rank mask j < rank mask c.
Proof.
  intros Hj Hm. pose proof (rank_mono mask (S j) c ltac:(lia)) as H. rewrite rank_S, Hm in H. lia.
Qed.

Lemma selected_app mask i j : i <= j -> exists l, selected mask j = selected mask i ++ l.
Proof.
  induction 1; [exists []; now rewrite app_nil_r|]. destruct IHle as [l Hl].
  unfold selected in *. rewrite seq_S, filter_app, Hl. rewrite <- app_assoc. now eexists.
Qed.

Lemma nth_selected mask j c d : j < c -> mask j = true -> nth (rank mask j) (selected mask c) d = j.
Proof.
  intros Hj Hm. destruct (selected_app mask (S j) c ltac:(lia)) as [l ->].
  unfold selected at 1. rewrite seq_S, filter_app. simpl. rewrite Hm, <- app_assoc.
  unfold rank. rewrite app_nth2 by lia. rewrite Nat.sub_diag. reflexivity.
Qed.

Lemma nth_error_selected mask c k j : nth_error (selected mask c) k = Some j ->
  j < c /\ mask j = true /\ k = rank mask j.
Proof.
  intros H. pose proof (nth_error_In _ _ H) as Hin. unfold selected in Hin. apply filter_In in Hin.
  destruct Hin as [Hs Hm]. apply in_seq in Hs. assert (Hj : j < c) by lia. repeat split; try assumption.
  assert (Hk : k < length (selected mask c)) by (apply nth_error_Some; congruence).
  assert (N : NoDup (selected mask c)) by (apply NoDup_filter, seq_NoDup).
  assert (Hr : rank mask j < length (selected mask c)) by (apply rank_lt; assumption).
  apply (proj1 (NoDup_nth _ 0) N k (rank mask j) Hk Hr).
  rewrite nth_selected by assumption. now apply nth_error_nth.
Qed.

Lemma rank_total_pos mask c : 0 < rank mask c <-> existsb mask (seq 0 c) = true.
Proof.
  rewrite existsb_exists. split.
  - intros H. unfold rank in H. destruct (filter mask (seq 0 c)) as [|j l] eqn:E; [simpl in H; lia|].
    exists j. apply filter_In. rewrite E. now left.
  - intros (j & Hj & Hm). apply in_seq in Hj. pose proof (rank_lt mask j c ltac:(lia) Hm). lia.
Qed.

Lemma col_select {A} (m : mat A) mask j : j < m_cols m -> mask j = true ->
  col (select_cols m mask) (rank mask j) = col m j.
Proof.
  intros Hj Hm. apply col_ext; [reflexivity|]. intros i Hi. cbn [select_cols m_get m_cols m_rows].
  now rewrite nth_selected.
Qed.

(** Row-major consumption of a source with one column per selected column. *)
Lemma masked_scatter_spec {A} (m : mat A) mask (src : mat A) :
  m_rows src = m_rows m -> m_cols src = rank mask (m_cols m) ->
  exists out, masked_scatter m mask src = Ok out /\ shaped out (m_rows m) (m_cols m) /\
    forall j, j < m_cols m -> col out j = if mask j then col src (rank mask j) else col m j.
Proof.
  intros Hr Hc. unfold masked_scatter. rewrite Hr, Hc. rewrite Nat.ltb_irrefl.
  eexists. split; [reflexivity|]. split; [now split|].
  intros j Hj. destruct (mask j) eqn:Hm.
  - apply col_ext; [simpl; lia|]. cbn [m_rows m_get]. intros i Hi. rewrite Hm.
    pose proof (rank_lt mask j (m_cols m) Hj Hm) as Hlt. set (n := rank mask (m_cols m)) in *. set (q := rank mask j) in *.
    rewrite (Nat.add_comm (i * n) q). rewrite Nat.div_add by lia. rewrite Nat.mod_add by lia.
    rewrite Nat.div_small, Nat.mod_small by lia. reflexivity.
  - apply col_ext; [reflexivity|]. cbn [m_rows m_get]. intros i Hi. now rewrite Hm.
Qed.

Lemma all_entries_true {A} (f : A -> bool) (m : mat A) :
  all_entries f m = true <-> entries (fun x => f x = true) m.
Proof.
  unfold all_entries, entries. rewrite forallb_forall. split.
  - intros H i j Hi Hj. specialize (H i ltac:(apply in_seq; lia)). rewrite forallb_forall in H.
    apply H. apply in_seq. lia.
  - intros H i Hi. apply in_seq in Hi. rewrite forallb_forall. intros j Hj. apply in_seq in Hj. apply H; lia.
Qed.

Lemma all_lt_true n (m : mat nat) : entries (fun k => k < n) m <-> all_entries (fun k => k <? n) m = true.
Proof.
  rewrite all_entries_true. unfold entries. split; intros H i j Hi Hj; specialize (H i j Hi Hj);
    [now apply Nat.ltb_lt|now apply Nat.ltb_lt in H].
Qed.

Lemma index_cols_spec {A} (m : mat A) idx mask :
  m_cols idx = rank mask (m_cols m) -> entries (fun k => k < m_rows m) idx ->
  exists out, index_cols m idx mask = Ok out /\ shaped out (m_rows idx) (m_cols idx) /\
    forall j, j < m_cols m -> mask j = true ->
      col out (rank mask j) = map (fun a => m_get m a j) (col idx (rank mask j)).
Proof.
  intros Hc He. unfold index_cols. rewrite Hc, Nat.eqb_refl. apply all_lt_true in He. rewrite He. simpl.
  eexists. split; [reflexivity|]. split; [now split|].
  intros j Hj Hm. unfold col; cbn [m_rows m_get]. rewrite map_map. apply map_ext. intros i.
  now rewrite nth_selected.
Qed.

Lemma batched_gather_spec {A} (m : mat A) idx :
  m_cols idx <= m_cols m -> entries (fun k => k < m_rows m) idx ->
  exists out, batched_gather m idx = Ok out /\ shaped out (m_rows idx) (m_cols idx) /\
    (forall i j, m_get out i j = m_get m (m_get idx i j) j) /\
    (forall j, col out j = map (fun a => m_get m a j) (col idx j)).
Proof.
  intros Hc He. unfold batched_gather. apply Nat.leb_le in Hc. rewrite Hc. apply all_lt_true in He. rewrite He. simpl.
  eexists. split; [reflexivity|]. split; [now split|]. split; [reflexivity|].
  intros j. unfold col; cbn [m_rows m_get]. now rewrite map_map.
Qed.

Section Norm.
  Variable lowest : R.

  Lemma fon_usable x : finite_or_ninf x -> usable lowest x.
  Proof. destruct x; simpl; try contradiction; intros _; eexists; reflexivity. Qed.

  Lemma col_clean (w : mat xf) j : entries finite_or_ninf w -> j < m_cols w -> forall x, In x (col w j) -> finite_or_ninf x.
  Proof. intros H Hj x Hx. apply in_col in Hx. destruct Hx as (i & Hi & <-). now apply H. Qed.

  Lemma imp_norm l : l <> [] -> (forall x, In x l -> finite_or_ninf x) ->
    normalize lowest l = Ok (map Fin (imp lowest l), map (nan_to_num lowest) l).
  Proof.
    intros Hne Hc. rewrite normalize_usable.
    - unfold imp, total. now rewrite map_map.
    - destruct l as [|x l]; [congruence|]. exists x. split; [now left|]. apply fon_usable, Hc. now left.
  Qed.

  Lemma length_imp l : length (imp lowest l) = length l.
  Proof. unfold imp. now rewrite map_length. Qed.

  Lemma imp_prob l : l <> [] -> (forall x, In x l -> finite_or_ninf x) -> prob_vec (imp lowest l).
  Proof.
    intros Hne Hc. assert (Hp : (0 < Rsum (map (mass lowest) l))%R).
    { apply (total_pos lowest l). destruct l as [|x l]; [congruence|]. exists x. split; [now left|]. apply fon_usable, Hc. now left. }
    split.
    - intros x Hx. unfold imp in Hx. apply in_map_iff in Hx. destruct Hx as (y & <- & _).
      apply Rmult_le_pos; [apply mass_nonneg|]. left. now apply Rinv_0_lt_compat.
    - unfold imp. unfold Rdiv. rewrite (Rsum_map_ext _ (fun x => (/ Rsum (map (mass lowest) l) * mass lowest x)%R))
        by (intros; ring). rewrite Rsum_map_scale. now apply Rinv_l, Rgt_not_eq.
  Qed.

  Lemma nan_to_num_clean x : finite_or_ninf x -> is_fin (nan_to_num lowest x).
  Proof. now destruct x. Qed.
  Lemma nan_to_num_fon x : finite_or_ninf (nan_to_num lowest x).
  Proof. now destruct x. Qed.
  Lemma nan_to_num_mass x : finite_or_ninf x -> mass lowest (nan_to_num lowest x) = mass lowest x.
  Proof. now destruct x. Qed.
  Lemma nan_to_num_fin x : is_fin x -> nan_to_num lowest x = x.
  Proof. now destruct x. Qed.

  Lemma imp_sanitise l : (forall x, In x l -> finite_or_ninf x) -> imp lowest (map (nan_to_num lowest) l) = imp lowest l.
  Proof.
    intros Hc. unfold imp. rewrite !map_map.
    assert (E : map (fun x => mass lowest (nan_to_num lowest x)) l = map (mass lowest) l).
    { apply map_ext_in. intros x Hx. apply nan_to_num_mass; auto. }
    rewrite E. apply map_ext_in. intros x Hx. now rewrite nan_to_num_mass by auto.
  Qed.

  Lemma normalize_mat_spec n b w : 0 < n -> shaped w n b -> entries finite_or_ninf w ->
    exists nw, normalize_mat lowest w = Ok (nw, map_mat (nan_to_num lowest) w) /\ shaped nw n b /\
      forall j, j < b -> col nw j = map Fin (imp lowest (col w j)).
  Proof.
    intros Hn [Hr Hc] He. unfold normalize_mat. destruct (Nat.eqb_spec (m_rows w) 0) as [E|_]; [lia|].
    eexists. split; [reflexivity|]. split; [now split|].
    intros j Hj.
    assert (Hne : col w j <> []) by (intros E; apply (f_equal (@length xf)) in E; rewrite length_col in E; simpl in E; lia).
    assert (Hcl : forall x, In x (col w j) -> finite_or_ninf x) by (apply col_clean; [exact He|lia]).
    assert (En : norm_col lowest (col w j) = map Fin (imp lowest (col w j))).
    { unfold norm_col. now rewrite imp_norm. }
    rewrite <- En. apply (col_of_list (m_rows w) (m_cols w) (fun j => norm_col lowest (col w j))).
    rewrite En, map_length, length_imp, length_col. reflexivity.
  Qed.

  Lemma mk_corr_spec {X} (x : tstate X) w ll inds : 0 < m_rows w ->
    mk_corr lowest x w ll inds = Ok (Corr x (map_mat (nan_to_num lowest) w) ll inds).
  Proof.
    intros H. unfold mk_corr, normalize_mat. destruct (Nat.eqb_spec (m_rows w) 0); [lia|]. reflexivity.
  Qed.

  Lemma ess_col_spec p : prob_vec p -> ess_col lowest (map Fin p) = Fin (ess_of p).
  Proof. intros Hp. unfold ess_col. destruct (get_ess_fin lowest p Hp) as [-> _]. reflexivity. Qed.

  Lemma below_spec thr nw j p : prob_vec p -> col nw j = map Fin p ->
    below lowest thr nw j = if Rlt_dec (ess_of p) thr then true else false.
  Proof.
    intros Hp E. unfold below. rewrite E, ess_col_spec by exact Hp. simpl. reflexivity.
  Qed.

  Lemma imp_zero n : 0 < n -> imp lowest (repeat (Fin 0) n) = repeat (/ INR n)%R n.
  Proof.
    intros Hn. unfold imp.
    assert (E : Rsum (map (mass lowest) (repeat (Fin 0) n)) = INR n).
    { rewrite (Rsum_map_ext _ (fun _ => 1%R)).
      - rewrite Rsum_map_const, repeat_length. ring.
      - intros x Hx. apply repeat_spec in Hx. subst. unfold mass; simpl. apply exp_0. }
    rewrite E. clear E. generalize (INR n). intros q. clear Hn. induction n as [|n IH]; [reflexivity|]. simpl. f_equal; [|exact IH].
    unfold mass; simpl. rewrite exp_0. unfold Rdiv. ring.
  Qed.
End Norm.
