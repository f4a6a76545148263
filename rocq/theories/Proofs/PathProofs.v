(** Proofs about filters whose particles list their own paths. *)
From Coq Require Import Reals List Bool Arith Lia Lra FunctionalExtensionality.
From Verif.Model Require Import Base Xf Tensor Weights Particle FilterLoop Smoothing.
From Verif.Spec Require Import WeightsSpec ResamplingSpec ParticleSpec LoopSpec GenealogySpec UnbiasedSpec FairSpec ConvergeSpec AuxiliarySpec PathSpec.
From Verif.Proofs Require Import WeightsProofs MomentsProofs ResamplingProofs ParticleProofs StepProofs LoopProofs UnbiasedProofs UnbiasedFilter ConvergeProofs ConvergeFilter.
Import ListNotations.
Local Open Scope nat_scope.
Notation length := List.length.

Section Expect.
  Context {X Y : Type} (z : X) (good : X -> Prop) (move : nat -> option Y -> (X -> R) -> X -> R) (movable : nat -> option Y -> (X -> R) -> Prop).
  Notation now := (now z).
  (** Functions of the last value of a path. *)
  Lemma along_now t y f : along z move t y (fun p => f (now p)) = fun p => move t y f (now p).
  Proof.
    apply functional_extensionality. intros p. unfold along. f_equal. apply functional_extensionality. intros x. unfold GenealogySpec.now. now rewrite last_last.
  Qed.
  Lemma movable_now t y f : movable t y f -> movable_along good movable t y (fun p => f (now p)).
  Proof.
    intros H p _. replace (fun x => f (now (p ++ [x]))) with f; [exact H|]. apply functional_extensionality. intros x. unfold GenealogySpec.now. now rewrite last_last.
  Qed.
  Lemma hops_now m : forall t f, hops (along z move) m t (fun p => f (now p)) = fun p => hops move m t f (now p).
  Proof. induction m as [|m IH]; intros t f; cbn [hops]; [reflexivity|]. rewrite IH. apply along_now. Qed.
  Lemma hoppable_now m : forall t f, hoppable move movable m t f -> hoppable (along z move) (movable_along good movable) m t (fun p => f (now p)).
  Proof.
    induction m as [|m IH]; intros t f; cbn [hoppable]; [trivial|]. intros [H1 H2]. split; [|now apply IH]. rewrite hops_now. now apply movable_now.
  Qed.
  Lemma expected_now every phi ys : forall t, expected (along z move) every (fun p => phi (now p)) t ys = fun p => expected move every phi t ys (now p).
  Proof. induction ys as [|y ys IH]; intros t; cbn [expected]; [reflexivity|]. rewrite IH, along_now, hops_now. reflexivity. Qed.
  Lemma has_expected_now every phi ys : forall t, has_expected move movable every phi t ys -> has_expected (along z move) (movable_along good movable) every (fun p => phi (now p)) t ys.
  Proof.
    induction ys as [|y ys IH]; intros t; cbn [has_expected]; [trivial|]. intros (H1 & H2 & H3). rewrite expected_now, along_now.
    split; [now apply hoppable_now|]. split; [now apply movable_now|now apply IH].
  Qed.
End Expect.

(** The draws of a filter, acting on particles with a past. *)
Definition past_chances {X U D} (z : X) (C : @chances X U D) : @chances (list X) U D :=
  Chances (resample C) (fun d x => remember x (walk C d (now_ts z x)))
    (fun d y x w nw => let out := propose C d y (now_ts z x) w nw in (remember x (fst out), snd out)) (fun y x => look C y (now_ts z x)).
Lemma past_stream {X U D} (z : X) (C : @chances X U D) w : at_stream (past_chances z C) w = with_past z (at_stream C w).
Proof. reflexivity. Qed.

Section Past.
  Context {X U D : Type} (LU : law (nat -> U)) (LD : law (nat -> D)) (C : @chances X U D) (z : X).
  Context (good : X -> Prop) (usable : list xf -> Prop) (fr : bool -> U -> list xf -> list nat) (fp : D -> nat -> list X -> list X)
    (fx : D -> list xf -> nat -> list X -> list xf -> list xf -> list X) (fw : D -> list xf -> nat -> list X -> list xf -> list xf -> list xf)
    (fg : nat -> list xf -> nat -> list X -> list xf).
  Hypothesis Hz : good z.
  Hypothesis Hsep : separate LU LD C good usable fr fp fx fw fg.
  Notation now := (now z).
  Notation gpath := (good_path good).
  Definition extend (xs : list (list X)) (vs : list X) : list (list X) := map (fun i => nth i xs [] ++ [nth i vs z]) (seq 0 (length xs)).
  Definition past_fp (d : D) t xs := extend xs (fp d t (map now xs)).
  Definition past_fx (d : D) y t xs ws nws := extend xs (fx d y t (map now xs) ws nws).
  Definition past_fw (d : D) y t xs ws nws := fw d y t (map now xs) ws nws.
  Definition past_fg k y t xs := fg k y t (map now xs).

  Lemma nth_extend xs vs i p : i < length xs -> nth i (extend xs vs) p = nth i xs p ++ [nth i vs z].
  Proof.
    intros Hi. unfold extend. rewrite (nth_map' _ _ _ p 0) by (rewrite seq_length; lia). rewrite seq_nth by lia. cbn [Nat.add]. f_equal. now apply nth_indep.
  Qed.
  Lemma nth_now xs i p : i < length xs -> nth i (map now xs) z = now (nth i xs p).
  Proof. intros Hi. exact (nth_map' now xs i z p Hi). Qed.
  Lemma now_good p : gpath p -> good (now p).
  Proof. intros [H1 H2]. apply (proj1 (Forall_forall _ _) H2). unfold GenealogySpec.now. destruct (exists_last H1) as (q & x & ->). rewrite last_last. apply in_app_iff. right. now left. Qed.
  Lemma now_goods xs : Forall gpath xs -> Forall good (map now xs).
  Proof. intros H. apply Forall_forall. intros x Hx. apply in_map_iff in Hx. destruct Hx as (p & <- & Hp). apply now_good. exact (proj1 (Forall_forall _ _) H p Hp). Qed.
  Lemma path_app p x : gpath p -> good x -> gpath (p ++ [x]).
  Proof. intros [H1 H2] Hx. split; [now destruct p|]. apply Forall_app. split; [exact H2|now constructor]. Qed.
  Lemma extend_good xs vs : Forall gpath xs -> Forall good vs -> Forall gpath (extend xs vs).
  Proof.
    intros H1 H2. apply Forall_forall. intros p Hp. unfold extend in Hp. apply in_map_iff in Hp. destruct Hp as (i & <- & Hi). apply in_seq in Hi.
    apply path_app; [apply (proj1 (Forall_forall _ _) H1), nth_In; lia|].
    destruct (Nat.lt_ge_cases i (length vs)) as [Q|Q]; [apply (proj1 (Forall_forall _ _) H2), nth_In; lia|rewrite nth_overflow by lia; exact Hz].
  Qed.
  Lemma col_remember (x : tstate (list X)) (x' : tstate X) k : m_rows (ts_val x') = m_rows (ts_val x) -> col (ts_val (remember x x')) k = extend (col (ts_val x) k) (col (ts_val x') k).
  Proof.
    intros E. unfold remember, extend. cbn [ts_val]. unfold col at 1. cbn [zip_mat m_rows m_get]. rewrite length_col. apply map_ext_in. intros i Hi. apply in_seq in Hi.
    rewrite !nth_col by lia. reflexivity.
  Qed.
  Lemma past_separate : separate LU LD (past_chances z C) gpath usable fr past_fp past_fx past_fw past_fg.
  Proof.
    constructor.
    - intros w r flag Hu. exact (sep_resample _ _ _ _ _ _ _ _ _ _ Hsep w r flag Hu).
    - intros d Hd x. destruct (sep_walk _ _ _ _ _ _ _ _ _ _ Hsep d Hd (now_ts z x)) as (H1 & (H2 & H2') & H3). cbn [now_ts ts_time ts_val map_mat m_rows m_cols] in *.
      split; [exact H1|]. split; [now split|]. intros k Hk. cbn [past_chances walk]. rewrite col_remember by exact H2. unfold past_fp. rewrite H3 by exact Hk.
      now rewrite <- (col_map_mat now).
    - intros w r Hd y x wt nw. pose proof (sep_propose _ _ _ _ _ _ _ _ _ _ Hsep w r Hd y (now_ts z x) wt nw) as Q. cbv zeta in Q.
      cbn [now_ts ts_time ts_val map_mat m_rows m_cols] in Q. destruct Q as (H1 & (H2 & H2') & H3 & H4). cbv zeta.
      cbn [at_stream sample_and_weight past_chances propose fst snd] in *. split; [exact H1|]. split; [now split|]. split; [exact H3|].
      intros k Hk. destruct (H4 k Hk) as [H5 H6]. rewrite col_remember by exact H2. unfold past_fx, past_fw. rewrite <- (col_map_mat now). split; [|exact H6].
      f_equal. exact H5.
    - intros y x. destruct (sep_look _ _ _ _ _ _ _ _ _ _ Hsep y (now_ts z x)) as (H1 & H2). cbn [now_ts ts_time ts_val map_mat m_rows m_cols] in *.
      split; [exact H1|]. intros k Hk. cbn [past_chances look]. rewrite H2 by exact Hk. unfold past_fg. now rewrite <- (col_map_mat now).
    - intros d k t xs Hd Hxs. apply extend_good; [exact Hxs|]. apply (sep_walk_good _ _ _ _ _ _ _ _ _ _ Hsep); [exact Hd|now apply now_goods].
    - intros d k y t xs ws nws Hd Hy Hxs. destruct (sep_propose_good _ _ _ _ _ _ _ _ _ _ Hsep d k y t (map now xs) ws nws Hd Hy (now_goods _ Hxs)) as [H1 H2].
      split; [now apply extend_good|exact H2].
    - intros k y t xs Hy Hxs. apply (sep_look_good _ _ _ _ _ _ _ _ _ _ Hsep); [exact Hy|now apply now_goods].
  Qed.

  Variables (n j : nat) (G : R) (move : nat -> option (list xf) -> (X -> R) -> X -> R) (movable : nat -> option (list xf) -> (X -> R) -> Prop).
  Hypothesis HD : law_ok LD.
  Notation fm := (fun xs p F i => fun x : X => F (nth i xs p ++ [x])).
  Lemma past_fair : fair_moves LD good n j move movable fp fx fw -> fair_moves LD gpath n j (along z move) (movable_along good movable) past_fp past_fx past_fw.
  Proof.
    intros [H1 H2]. split.
    - intros t xs i F p Lx Gx Hi Hm. pose proof (proj1 (Forall_forall _ _) Gx _ (@nth_In _ i xs p ltac:(lia))) as Gi.
      pose proof (H1 t (map now xs) i (fun x => F (nth i xs p ++ [x])) z ltac:(now rewrite map_length) (now_goods _ Gx) Hi (Hm _ Gi)) as Q.
      rewrite (nth_now xs i p) in Q by lia. refine (averages_ext LD HD _ _ _ _ Q). intros d _. unfold past_fp. rewrite nth_extend by lia. reflexivity.
    - intros y t xs ws nws i F p Lx Gx Hi Hm. pose proof (proj1 (Forall_forall _ _) Gx _ (@nth_In _ i xs p ltac:(lia))) as Gi.
      pose proof (H2 y t (map now xs) ws nws i (fun x => F (nth i xs p ++ [x])) z ltac:(now rewrite map_length) (now_goods _ Gx) Hi (Hm _ Gi)) as Q.
      rewrite (nth_now xs i p) in Q by lia. refine (averages_ext LD HD _ _ _ _ Q). intros d _. unfold past_fx. rewrite nth_extend by lia. reflexivity.
  Qed.
  Lemma past_sum xs p (F : list X -> R) (y : option (list xf)) t (a : nat -> R) : length xs = n ->
    sum_below n (fun i => a i * along z move t y F (nth i xs p))%R = sum_below n (fun i => a i * move t y (fun x => F (nth i xs p ++ [x])) (nth i (map now xs) z))%R.
  Proof. intros Lx. apply (sumto_ext n). intros i Hi. rewrite (nth_now xs i p) by lia. reflexivity. Qed.
  Lemma past_steady : steady_moves LD good usable G n j move movable fp fx fw -> steady_each LD good usable G n j move movable fp fx fw ->
    steady_moves LD gpath usable G n j (along z move) (movable_along good movable) past_fp past_fx past_fw.
  Proof.
    intros [H0 _ _] [H1 H2]. constructor.
    - intros d y t xs ws nws i Hd Hy Lx Gx Hi. apply H0; try assumption; [now rewrite map_length|now apply now_goods].
    - intros t xs F B a p Lx Gx Hm HB. rewrite past_sum by exact Lx.
      assert (Gi : forall i, i < n -> gpath (nth i xs p)) by (intros i Hi; apply (proj1 (Forall_forall _ _) Gx), nth_In; lia).
      refine (at_most_weaken LD _ _ _ _ _ (H1 t (map now xs) (fun i x => F (nth i xs p ++ [x])) B a z ltac:(now rewrite map_length) (now_goods _ Gx) (fun i Hi => Hm _ (Gi i Hi)) _) (Rle_refl _)).
      + intros d _. right. do 2 f_equal. apply (sumto_ext n). intros i Hi. unfold past_fp. now rewrite nth_extend by lia.
      + intros i x Hi Hx. apply HB, path_app; [now apply Gi|exact Hx].
    - intros y t xs ws nws F B a p Hy Lx Gx Hm HB. rewrite past_sum by exact Lx.
      assert (Gi : forall i, i < n -> gpath (nth i xs p)) by (intros i Hi; apply (proj1 (Forall_forall _ _) Gx), nth_In; lia).
      refine (at_most_weaken LD _ _ _ _ _ (H2 y t (map now xs) ws nws (fun i x => F (nth i xs p ++ [x])) B a z Hy ltac:(now rewrite map_length) (now_goods _ Gx) (fun i Hi => Hm _ (Gi i Hi)) _) (Rle_refl _)).
      + intros d _. right. do 2 f_equal. apply (sumto_ext n). intros i Hi. unfold past_fx. now rewrite nth_extend by lia.
      + intros i x Hi Hx. apply HB, path_app; [now apply Gi|exact Hx].
  Qed.
  Variables (P H : R) (ahead : list xf -> nat -> X -> R).
  Definition past_ahead y t (p : list X) : R := ahead y t (now p).
  Lemma past_looks : steady_ahead LD good usable P H n j move movable fx fw fg ahead -> ahead_each LD good usable H n j move movable fx fw ahead ->
    steady_ahead LD gpath usable P H n j (along z move) (movable_along good movable) past_fx past_fw past_fg past_ahead.
  Proof.
    intros [H1 H2 H3 _] H4. constructor.
    - intros y t xs Hy Gx. unfold past_fg. rewrite H1 by (try apply now_goods; assumption). apply map_map.
    - intros y t p Hy Hp. apply H2; [exact Hy|now apply now_good].
    - intros d y t xs ws nws i p Hd Hy Lx Gx Hi. unfold past_ahead. rewrite <- (nth_now xs i p) by lia. apply H3; try assumption; [now rewrite map_length|now apply now_goods].
    - intros y t xs ws nws F B a p Hy Lx Gx Hm HB. rewrite past_sum by exact Lx.
      assert (Gi : forall i, i < n -> gpath (nth i xs p)) by (intros i Hi; apply (proj1 (Forall_forall _ _) Gx), nth_In; lia).
      refine (at_most_weaken LD _ _ _ _ _ (H4 y t (map now xs) ws nws (fun i x => F (nth i xs p ++ [x])) B a z Hy ltac:(now rewrite map_length) (now_goods _ Gx) (fun i Hi => Hm _ (Gi i Hi)) _) _).
      + intros d _. right. do 2 f_equal. apply (sumto_ext n). intros i Hi. unfold past_fx. now rewrite nth_extend by lia.
      + intros i x Hi Hx. apply HB, path_app; [now apply Gi|exact Hx].
      + right. f_equal. apply (sumto_ext n). intros i Hi. unfold past_ahead. now rewrite (nth_now xs i p) by lia.
  Qed.

  (** The functions of the filter behave when their draws can occur. *)
  Lemma stream_behaves w m : 0 < m -> possible LU LD w -> well_behaved (at_stream C w) m.
  Proof.
    intros Hm Hw. split; [|split; [|split]].
    - intros r flag q Hq. destruct (sep_resample _ _ _ _ _ _ _ _ _ _ Hsep w r flag (proj1 (Hw r)) q ltac:(lia)) as (i & E & S1 & S2 & _).
      exists i. split; [exact E|]. rewrite Hq in *. destruct S1 as [S11 S12]. split; [now split|]. intros a c Ha Hc. apply S2; congruence.
    - intros r x. exact (proj1 (proj2 (sep_walk _ _ _ _ _ _ _ _ _ _ Hsep _ (proj2 (Hw r)) x))).
    - intros r y x a c. pose proof (sep_propose _ _ _ _ _ _ _ _ _ _ Hsep w r (proj2 (Hw r)) y x a c) as Q. cbv zeta in Q. destruct Q as (_ & Q1 & Q2 & _). now split.
    - intros y x. exact (proj1 (sep_look _ _ _ _ _ _ _ _ _ _ Hsep y x)).
  Qed.
  Lemma stream_clock w : possible LU LD w -> clock (at_stream C w).
  Proof.
    intros Hw. split.
    - intros r x. exact (proj1 (sep_walk _ _ _ _ _ _ _ _ _ _ Hsep _ (proj2 (Hw r)) x)).
    - intros r y x a c. exact (proj1 (sep_propose _ _ _ _ _ _ _ _ _ _ Hsep w r (proj2 (Hw r)) y x a c)).
  Qed.
End Past.
