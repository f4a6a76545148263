(** Lemmas for C112: an SMC2 fit as a function of its draws. *)
From Coq Require Import Reals List Bool Arith Lia Lra FunctionalExtensionality.
From Verif.Model Require Import Base Xf Weights Pmmh Sequential.
From Verif.Spec Require Import WeightsSpec ParticleSpec ResamplingSpec PmmhSpec SequentialSpec UnbiasedSpec ConvergeSpec StationarySpec ProperSpec RejuvenateSpec ExactSpec.
From Verif.Proofs Require Import WeightsProofs SequentialProofs UnbiasedProofs UnbiasedFilter StationaryProofs.
From Verif.Props Require Import WeightsProps PmmhProps SequentialProps SequentialMoves SequentialWeights StationaryProps ProperProps RejuvenateProps.
Import ListNotations.
Local Open Scope nat_scope.

(** * Laws *)
Section Streams.
  Context {U D : Type} (LU : law U) (LD : law D) (HU : law_ok LU) (HD : law_ok LD).
  Lemma over_possible k : forall r f g w m, possible LU LD w -> (forall w', possible LU LD w' -> f w' = g w') -> averages_over LU LD k r f w m -> averages_over LU LD k r g w m.
  Proof.
    induction k as [|k IH]; intros r f g w m Hw H [D1 E1].
    - split; [exact I|]. cbn in *. rewrite <- H by exact Hw. exact E1.
    - cbn [exists_average average] in D1, E1. destruct D1 as [D1 D2].
      assert (P : forall u d, supp LU u -> supp LD d -> possible LU LD (put w r (u, d))) by (intros u d Hu Hd i; unfold put; destruct (i =? r); [now split|apply Hw]).
      apply (over_step LU LD HU HD k r g w (fun u d => average LU LD k (S r) f (put w r (u, d))) (fun u => mean LD (fun d => average LU LD k (S r) f (put w r (u, d))))).
      + intros u d Hu Hd. apply (IH (S r) f g); [now apply P|exact H|]. split; [now apply (D2 u Hu)|reflexivity].
      + intros u Hu. split; [apply (D2 u Hu)|reflexivity].
      + now split.
  Qed.
  Lemma streams_ok k base : possible LU LD base -> law_ok (streams LU LD k base).
  Proof.
    intros P. constructor.
    - intros f g H Df. apply (over_possible k 0 f g base _ P H). now split.
    - intros c. apply (over_const LU LD HU HD k 0). reflexivity.
    - intros a b f g Df Dg. apply (over_lin LU LD HU HD); now split.
  Qed.
End Streams.

(** * The moves, as a function of their draws *)
Section Chain.
  Context {T F Y K U D : Type} (cand : D -> nat -> T) (filt : D -> nat -> T -> F * xf) (B : nat) (lp : T -> xf) (lq : T -> R).
  Fixpoint chain_moves (n i : nat) (m : @stream D (list R)) (ctx : list T) (fs : list (F * xf)) : list T * list (F * xf) :=
    match n with
    | 0 => (ctx, fs)
    | S n => let r := fst (move cand filt B lp lq (fst (m i)) (snd (m i)) ctx fs) in chain_moves n (S i) m (positions r) (results r)
    end.
  Lemma chain_moves_ok (L : law D) (M : measure (T * (F * xf))) n : 0 < B ->
    (forall b d z, b < B -> supp L d -> among M z -> among M (proposed cand filt b d z)) -> (forall z, among M z -> proper (lp (fst z)) /\ proper (snd (snd z))) ->
    forall i m ctx fs, possible L (uniforms B) m -> List.length ctx = B -> List.length fs = B ->
    (forall b t f, nth_error ctx b = Some t -> nth_error fs b = Some f -> among M (t, f)) ->
    let r := chain_moves n i m ctx fs in List.length (fst r) = B /\ List.length (snd r) = B /\ forall b t f, nth_error (fst r) b = Some t -> nth_error (snd r) b = Some f -> among M (t, f).
  Proof.
    intros HB Hcl Hpr. induction n as [|n IH]; intros i m ctx fs Pm L1 L2 Hin; cbn [chain_moves]; [cbn; auto|]. destruct (Pm i) as [Pd Pu].
    assert (Q : forall b t f, b < B -> nth_error ctx b = Some t -> nth_error fs b = Some f -> _) by exact (fun b t f Hb Et Ef => move_chain L cand filt B lp lq b Hb M (fun d z => Hcl b d z Hb) Hpr (fst (m i)) (snd (m i)) ctx fs (t, f) Pd Pu L1 L2 Et Ef (Hin b t f Et Ef)).
    set (r := fst (move _ _ _ _ _ _ _ _ _)) in *. destruct (nth_some ctx 0 ltac:(lia)) as [t0 E0]. destruct (nth_some fs 0 ltac:(lia)) as [f0 E0']. destruct (Q 0 t0 f0 HB E0 E0') as (C1 & C2 & _).
    apply IH; [exact Pm|exact C1|exact C2|]. intros b t f Et Ef. assert (Hb : b < B) by (rewrite <- C1; apply nth_error_Some; congruence).
    destruct (nth_some ctx b ltac:(lia)) as [t1 E1]. destruct (nth_some fs b ltac:(lia)) as [f1 E2]. destruct (Q b t1 f1 Hb E1 E2) as (_ & _ & A1 & A2). rewrite Et in A1. rewrite Ef in A2. injection A1 as ->. injection A2 as ->.
    destruct (Rlt_dec _ _); cbn [fst snd]; [exact (Hcl b _ (t1, f1) Hb Pd (Hin b t1 f1 E1 E2))|exact (Hin b t1 f1 E1 E2)].
  Qed.
  Context (E : U -> @stream D (list R) -> env T F Y K) (pick : U -> list xf -> list nat) (np r0 : nat) (data : list Y).
  Context (UD : uses_draws E pick cand filt B np r0 data lp lq).
  Notation pos i := (r0 + 2 + i * (3 + List.length data)).
  Context (c : smc2_cfg) (Hacc : (c_accept c <= 0)%R) (Hdist : c_dist c = None).
  Lemma moves_chain u w n : forall i j prev rate k old ctx fs, (0 <= rate)%R ->
    exists accs, pmmh_moves (E u w) c np data k old n i (pos j) prev rate ctx fs = (fst (chain_moves n j w ctx fs), snd (chain_moves n j w ctx fs), pos (j + n), accs, false).
  Proof.
    induction n as [|n IH]; intros i j prev rate k old ctx fs Hr; cbn [pmmh_moves chain_moves]; [exists []; now rewrite Nat.add_0_r|].
    destruct (pmmh_move E pick cand filt B np r0 data lp lq UD u w j k (map (fun _ => Fin 0) fs) ctx fs) as (P1 & P2 & P3). cbv zeta in P1, P2, P3.
    destruct (run_pmmh snd _ _ _ _ _ _ _ _ _ _) as [ch acc]. cbn [fst snd] in P1, P2, P3. rewrite Hdist.
    assert (R : (0 <= (accepted_fraction acc + INR i * rate) / INR (S i))%R) by (apply (rate_nonneg 1 0); [lia|exact Hr]). destruct (Rlt_dec _ (c_accept c)) as [C|_]; [lra|].
    replace (pos j + 3 + List.length data) with (pos (S j)) by lia. destruct (IH (S i) (S j) prev _ k old (positions ch) (results ch) R) as [accs ->]. rewrite P1, P2. replace (S j + n) with (j + S n) by lia. eauto.
  Qed.
End Chain.

(** * A fit *)
(** The particles: parameters, filter results, log weights; the product of the mean weights at the rejuvenations so far. *)
Record pop {T F : Type} : Type := Pop { p_ctx : list T; p_fs : list (F * xf); p_ws : list R; p_z : R }.
Arguments Pop {T F}.
Definition num (x : xf) : R := match x with Fin r => r | _ => 0%R end.
Lemma mass_num x : is_fin x -> mass x = exp (num x).
Proof. destruct x; [reflexivity|contradiction..]. Qed.
Lemma fin_num x : is_fin x -> x = Fin (num x).
Proof. destruct x; [reflexivity|contradiction..]. Qed.
Lemma nth_of {A} (l : list A) b x d : nth_error l b = Some x -> nth b l d = x.
Proof. apply nth_error_nth. Qed.
Lemma in_range {A} (l : list A) b x : nth_error l b = Some x -> b < List.length l.
Proof. intros E. apply nth_error_Some. congruence. Qed.
Lemma same_lists {A} (l l' : list A) : List.length l = List.length l' -> (forall b, b < List.length l -> nth_error l b = nth_error l' b) -> l = l'.
Proof. intros E H. apply list_ext. intros b. destruct (Nat.lt_ge_cases b (List.length l)) as [C|C]; [now apply H|]. rewrite !(proj2 (nth_error_None _ b)) by lia. reflexivity. Qed.

Section Fit.
  Context {T F Y K A Q U D : Type}.
  Notation blk := (@block Q U D).
  Context (E : A -> (nat -> blk) -> env T F Y K) (LA : law A) (LQ : law Q) (LU : law U) (L : law D) (HA : law_ok LA) (HQ : law_ok LQ) (HU : law_ok LU) (HL : law_ok L).
  Context (rows : A -> list T) (init : A -> nat -> T -> F) (advance : Q -> nat -> T -> Y -> F -> F * xf) (pick : U -> list xf -> list nat)
    (cand : D -> nat -> T) (filt : nat -> D -> nat -> T -> F * xf) (c : smc2_cfg) (B np rnd : nat) (sched : nat -> bool) (ys : list Y) (lp : T -> xf) (lq : T -> R).
  Notation k := (c_steps c).
  Notation drawn := (fit_draws_at E init advance pick cand filt B np rnd k sched ys lp lq).
  Context (M : nat -> measure (T * (F * xf))) (G : nat -> (T * (F * xf) -> T * (F * xf) -> R) -> Prop) (H : nat -> (T * (F * xf) -> R) -> Prop).
  Context (TG : targets LA LQ L rows init advance cand filt B sched ys lp lq M G H) (HM : forall j, measure_ok (M j)).
  Context (FP : fair_pick LU pick B) (HB : 0 < B) (Hacc : (c_accept c <= 0)%R) (Hdist : c_dist c = None).
  Notation pos := (position rnd k sched).
  Notation height := (target lp lq).
  Notation adv := (advanced advance).

  Definition slots (p : @pop T F) : list (nat * ((T * (F * xf)) * R)) := combine (seq 0 B) (combine (combine (p_ctx p) (p_fs p)) (p_ws p)).
  Definition absorbed (q : Q) (y : Y) (p : @pop T F) : pop :=
    Pop (p_ctx p) (map (fun x => snd (adv q (fst x) y (fst (snd x)))) (slots p))
        (map (fun x => let z := fst (snd x) in snd (snd x) + num (snd (advance q (fst x) (fst z) y (fst (snd z)))))%R (slots p)) (p_z p).
  Definition renewed (j : nat) (u : U) (m : @stream D (list R)) (p : @pop T F) : pop :=
    let idx := pick u (map Fin (shares (p_ws p))) in
    match gather (p_ctx p) idx, gather (p_fs p) idx with
    | Ok rows, Ok fs => let r := chain_moves cand (filt (S j)) B lp lq k 0 m rows fs in Pop (fst r) (snd r) (repeat 0%R B) (p_z p * mean_weight B (p_ws p))%R
    | _, _ => p
    end.
  Definition next (j : nat) (bl : blk) (p : @pop T F) : pop :=
    match nth_error ys j with
    | Some y => let p1 := absorbed (fst bl) y p in if sched j then renewed j (fst (snd bl)) (snd (snd bl)) p1 else p1
    | None => p
    end.
  Definition start (a : A) : @pop T F := Pop (rows a) (map (fun x => (init a (fst x) (snd x), Fin 0)) (combine (seq 0 B) (rows a))) (repeat 0%R B) 1%R.
  Fixpoint after (j : nat) (a : A) (w : nat -> blk) : pop := match j with 0 => start a | S j => next j (w j) (after j a w) end.
  Record good (j : nat) (p : @pop T F) : Prop := {
    gd_ctx : List.length (p_ctx p) = B; gd_fs : List.length (p_fs p) = B; gd_ws : List.length (p_ws p) = B;
    gd_in : forall b t f, nth_error (p_ctx p) b = Some t -> nth_error (p_fs p) b = Some f -> among (M j) (t, f)
  }.
  Lemma slot_nth j p b : good j p -> b < B -> exists t f r, nth_error (p_ctx p) b = Some t /\ nth_error (p_fs p) b = Some f /\ nth_error (p_ws p) b = Some r /\
    nth_error (slots p) b = Some (b, ((t, f), r)) /\ among (M j) (t, f).
  Proof.
    intros [G1 G2 G3 G4] Hb. destruct (nth_some (p_ctx p) b ltac:(lia)) as [t Et]. destruct (nth_some (p_fs p) b ltac:(lia)) as [f Ef]. destruct (nth_some (p_ws p) b ltac:(lia)) as [r Er].
    exists t, f, r. split; [exact Et|]. split; [exact Ef|]. split; [exact Er|]. split; [|now apply (G4 b)]. unfold slots.
    apply combine_nth_error; [rewrite (nth_error_nth' _ 0) by (now rewrite seq_length); now rewrite seq_nth|]. apply combine_nth_error; [|exact Er]. now apply combine_nth_error.
  Qed.
  Lemma slots_len j p : good j p -> List.length (slots p) = B.
  Proof. intros [G1 G2 G3 _]. unfold slots. rewrite !combine_length, seq_length. lia. Qed.
  Lemma absorbed_nth j p q y b : good j p -> b < B -> exists t f r, nth_error (p_ctx p) b = Some t /\ nth_error (p_fs p) b = Some f /\ nth_error (p_ws p) b = Some r /\
    nth_error (p_fs (absorbed q y p)) b = Some (snd (adv q b y (t, f))) /\ nth_error (p_ws (absorbed q y p)) b = Some (r + num (snd (advance q b t y (fst f))))%R /\ among (M j) (t, f).
  Proof.
    intros Gp Hb. destruct (slot_nth j p b Gp Hb) as (t & f & r & Et & Ef & Er & Es & In). exists t, f, r. cbn [absorbed p_fs p_ws]. rewrite !nth_error_map, Es. auto 10.
  Qed.
  Lemma absorbed_good j p q y : nth_error ys j = Some y -> supp LQ q -> good j p -> good (S j) (absorbed q y p).
  Proof.
    intros Ey Hq Gp. constructor; cbn [absorbed p_ctx p_fs p_ws]; [apply Gp|rewrite map_length; now apply (slots_len j)|rewrite map_length; now apply (slots_len j)|].
    intros b t' f' Et' Ef'. assert (Hb : b < B) by (rewrite <- (gd_ctx _ _ Gp); now apply in_range with t'). destruct (absorbed_nth j p q y b Gp Hb) as (t & f & r & Et & Ef & Er & Es & Ew & In).
    cbn [absorbed p_fs] in Es. rewrite Et in Et'. injection Et' as <-. rewrite Es in Ef'. injection Ef' as <-. exact (proj1 (tg_among _ _ _ _ _ _ _ _ _ _ _ _ _ _ _ _ TG j y (t, f) q b Ey In Hq Hb)).
  Qed.
  Lemma idx_ok j p u : good j p -> supp LU u -> let idx := pick u (map Fin (shares (p_ws p))) in List.length idx = B /\ Forall (fun i => i < B) idx.
  Proof. intros Gp Hu. destruct (shares_ok (T := T) (F := F) (Y := Y) B np 0 HB (World (p_ctx p) (p_ctx p) np 0 0) (St (map Fin (p_ws p)) (p_fs p) [] (@None (list Y)) 0) (p_ws p)) as [Ps Ls]; try reflexivity; try apply Gp. exact (proj1 FP u _ Hu Ps Ls). Qed.
  Lemma renewed_is j p u m : good j p -> supp LU u -> exists rows fs, gather (p_ctx p) (pick u (map Fin (shares (p_ws p)))) = Ok rows /\ gather (p_fs p) (pick u (map Fin (shares (p_ws p)))) = Ok fs /\
    List.length rows = B /\ List.length fs = B /\ (forall b t f, nth_error rows b = Some t -> nth_error fs b = Some f -> among (M j) (t, f)) /\
    forall i, renewed i u m p = (let r := chain_moves cand (filt (S i)) B lp lq k 0 m rows fs in Pop (fst r) (snd r) (repeat 0%R B) (p_z p * mean_weight B (p_ws p))%R).
  Proof.
    intros Gp Hu. destruct (idx_ok j p u Gp Hu) as [Li Fi]. unfold renewed. set (idx := pick u _) in *.
    destruct (gather_ok (p_ctx p) idx) as (rw & G1 & L1 & N1); [now rewrite (gd_ctx _ _ Gp)|]. destruct (gather_ok (p_fs p) idx) as (fs & G2 & L2 & N2); [now rewrite (gd_fs _ _ Gp)|].
    exists rw, fs. rewrite G1, G2. repeat split; try congruence.
    intros b t f Et Ef. destruct (nth_some idx b) as [i Ei]; [rewrite <- L1; now apply in_range with t|]. rewrite (N1 b i Ei) in Et. rewrite (N2 b i Ei) in Ef. now apply (gd_in _ _ Gp i).
  Qed.
  Lemma renewed_good j p u m : sched j = true -> supp LU u -> possible L (uniforms B) m -> good (S j) p -> good (S j) (renewed j u m p).
  Proof.
    intros Sj Hu Pm Gp. destruct (renewed_is (S j) p u m Gp Hu) as (rw & fs & _ & _ & L1 & L2 & N & ->). cbv zeta.
    destruct (chain_moves_ok cand (filt (S j)) B lp lq L (M (S j)) k HB (fun b d z Hb => tg_closed _ _ _ _ _ _ _ _ _ _ _ _ _ _ _ _ TG j b d z Sj Hb) (fun z => tg_proper _ _ _ _ _ _ _ _ _ _ _ _ _ _ _ _ TG (S j) z) 0 m rw fs Pm L1 L2 N) as (C1 & C2 & C3).
    constructor; cbn [p_ctx p_fs p_ws]; [exact C1|exact C2|apply repeat_length|exact C3].
  Qed.
  Definition blk_ok (bl : blk) : Prop := supp LQ (fst bl) /\ supp LU (fst (snd bl)) /\ possible L (uniforms B) (snd (snd bl)).
  Lemma next_good j p bl : j < List.length ys -> blk_ok bl -> good j p -> good (S j) (next j bl p).
  Proof.
    intros Hj (Hq & Hu & Pm) Gp. destruct (nth_some ys j Hj) as [y Ey]. unfold next. rewrite Ey. pose proof (absorbed_good j p (fst bl) y Ey Hq Gp) as G1. cbv zeta.
    destruct (sched j) eqn:Sj; [|exact G1]. now apply renewed_good.
  Qed.
  Lemma start_good a : supp LA a -> good 0 (start a).
  Proof.
    intros Ha. destruct (tg_rows _ _ _ _ _ _ _ _ _ _ _ _ _ _ _ _ TG a Ha) as [L1 N]. constructor; cbn [start p_ctx p_fs p_ws]; [exact L1|rewrite map_length, combine_length, seq_length; lia|apply repeat_length|].
    intros b t f Et Ef. rewrite nth_error_map in Ef. rewrite <- L1 in Ef. rewrite (combine_seq_nth _ b t Et) in Ef. injection Ef as <-. now apply N.
  Qed.
  Lemma after_good a w : supp LA a -> (forall j, blk_ok (w j)) -> forall j, j <= List.length ys -> good j (after j a w).
  Proof. intros Ha Hw. induction j as [|j IH]; intros Hj; [now apply start_good|]. cbn [after]. apply next_good; [lia|apply Hw|]. apply IH. lia. Qed.
  Lemma after_local a w w' : forall j, (forall i, i < j -> w i = w' i) -> after j a w = after j a w'.
  Proof. induction j as [|j IH]; intros Hw; [reflexivity|]. cbn [after]. rewrite (Hw j) by lia. f_equal. apply IH. intros i Hi. apply Hw. lia. Qed.

  (** ** The program *)
  Record matches (j : nat) (p : @pop T F) (a : @alg T) (s : @sstate F Y) : Prop := {
    mt_ctx : g_ctx (a_world a) = p_ctx p; mt_model : g_model (a_world a) = p_ctx p; mt_np : g_np (a_world a) = np; mt_rnd : g_rnd (a_world a) = pos j;
    mt_w : s_w s = map Fin (p_ws p); mt_fs : s_fs s = p_fs p; mt_data : s_data s = Some (firstn j ys); mt_ess : List.length (s_ess s) = S j
  }.
  Lemma ess_fin lowest (l : list R) : l <> [] -> exists e, get_ess lowest (map Fin l) false = Ok (Fin e, map Fin l) /\ (1 <= e <= INR (List.length l))%R.
  Proof.
    intros Hl. destruct (C08_ess_bounds_log lowest (map Fin l)) as (e & arg & Eg & Be).
    - destruct l as [|x l]; [congruence|]. exists (Fin x). split; [now left|]. now exists x.
    - exists e. rewrite map_length in Be. split; [|exact Be]. unfold get_ess in *. rewrite (normalize_fin lowest l Hl) in *. cbn [bind] in *. congruence.
  Qed.
  Lemma callbacks_same (E' : env T F Y K) cbs y (s : @sstate F Y) l : s_w s = map Fin l -> l <> [] -> exists calls, run_callbacks E' cbs y s = (calls, s).
  Proof.
    intros Es Hl. assert (R : read_weights E' s = s).
    { unfold read_weights, normalized_weights. rewrite Es, (normalize_fin _ l Hl). cbn. unfold with_w. rewrite <- Es. now destruct s. }
    induction cbs as [|cb cbs [calls IH]]; cbn [run_callbacks]; [eauto|]. rewrite R. destruct (cb_reads cb); rewrite IH; eauto.
  Qed.
  Lemma firstn_next {X} (l : list X) : forall j y, nth_error l j = Some y -> firstn (S j) l = firstn j l ++ [y].
  Proof. induction l as [|x l IH]; intros [|j] y Ey; try discriminate; cbn in *; [congruence|]. f_equal. now apply IH. Qed.
  Lemma absorb_is a w (FD : drawn a w) j y p s g : nth_error ys j = Some y -> supp LQ (fst (w j)) -> good j p ->
    g_ctx g = p_ctx p -> g_model g = p_ctx p -> g_np g = np -> g_rnd g = pos j -> s_w s = map Fin (p_ws p) -> s_fs s = p_fs p ->
    let p1 := absorbed (fst (w j)) y p in
    exists e, get_ess (e_lowest (E a w)) (map Fin (p_ws p1)) false = Ok (Fin e, map Fin (p_ws p1)) /\ absorb (E a w) g y s = (tick 1 g, Ok (St (map Fin (p_ws p1)) (p_fs p1) (s_ess s ++ [Fin e]) (s_data s) (s_iter s))) /\
      mean_then (E a w) g y s = mean_weight B (p_ws p1).
  Proof.
    intros Ey Hq Gp G1 G2 G3 G4 S1 S2 p1. assert (Hj : j < List.length ys) by now apply in_range with y.
    pose proof (absorbed_good j p (fst (w j)) y Ey Hq Gp) as Gp1. fold p1 in Gp1. pose proof (fa_size _ _ _ _ _ _ _ _ _ _ _ _ _ _ _ _ FD) as EB.
    unfold absorb. rewrite G1, G2, G3, G4, S1, S2. set (cs := corrections _ _ _ _ _ _ _).
    assert (Lc : List.length cs = B) by (unfold cs; pose proof (corrections_len (E a w) (pos j) np (p_ctx p) (p_ctx p) y (p_fs p)) as X; rewrite EB in X; apply X; apply Gp).
    assert (N : forall b, b < B -> exists t f r, nth_error (p_ctx p) b = Some t /\ nth_error (p_fs p) b = Some f /\ nth_error (p_ws p) b = Some r /\ nth_error (p_fs p1) b = Some (snd (adv (fst (w j)) b y (t, f))) /\
        nth_error (p_ws p1) b = Some (r + num (snd (advance (fst (w j)) b t y (fst f))))%R /\ is_fin (snd (advance (fst (w j)) b t y (fst f))) /\ nth_error cs b = Some (advance (fst (w j)) b t y (fst f))).
    { intros b Hb. destruct (absorbed_nth j p (fst (w j)) y b Gp Hb) as (t & f & r & Et & Ef & Er & Es & Ew & In). exists t, f, r. repeat (split; [assumption|]). split.
      - exact (proj2 (tg_among _ _ _ _ _ _ _ _ _ _ _ _ _ _ _ _ TG j y (t, f) (fst (w j)) b Ey In Hq Hb)).
      - unfold cs. rewrite (corrections_nth (E a w) (pos j) np (p_ctx p) (p_ctx p) y (p_fs p) b t t f); try assumption; try (rewrite (gd_ctx _ _ Gp), (gd_fs _ _ Gp); reflexivity).
        f_equal. now apply (fa_step _ _ _ _ _ _ _ _ _ _ _ _ _ _ _ _ FD). }
    assert (W : zip_with xadd (map Fin (p_ws p)) (map snd cs) = map Fin (p_ws p1)).
    { apply same_lists; [rewrite map_length, (gd_ws _ _ Gp1); apply zip_len; rewrite map_length; [apply Gp|exact Lc]|]. intros b Hb. assert (Hb' : b < B) by (unfold zip_with in Hb; rewrite map_length, combine_length, !map_length, Lc in Hb; lia).
      destruct (N b Hb') as (t & f & r & Et & Ef & Er & Es & Ew & Fi & Ec). rewrite nth_error_map, Ew. cbn [option_map].
      rewrite (zip_nth xadd (map Fin (p_ws p)) (map snd cs) b (Fin r) (snd (advance (fst (w j)) b t y (fst f)))); [|now rewrite nth_error_map, Er|now rewrite nth_error_map, Ec]. f_equal. rewrite (fin_num _ Fi) at 1. reflexivity. }
    assert (A1 : append_result (p_fs p) cs = p_fs p1).
    { apply same_lists; [rewrite (gd_fs _ _ Gp1); apply zip_len; [apply Gp|exact Lc]|]. intros b Hb. assert (Hb' : b < B) by (unfold append_result, zip_with in Hb; rewrite map_length, combine_length, Lc in Hb; lia).
      destruct (N b Hb') as (t & f & r & Et & Ef & Er & Es & Ew & Fi & Ec). rewrite Es. unfold append_result. rewrite (zip_nth _ (p_fs p) cs b f _ Ef Ec). reflexivity. }
    rewrite W, A1. assert (Ne : p_ws p1 <> []) by (intros X; pose proof (gd_ws _ _ Gp1) as X'; rewrite X in X'; cbn in X'; lia). destruct (ess_fin (e_lowest (E a w)) _ Ne) as (e & Ee & Be).
    exists e. split; [exact Ee|]. split; [rewrite Ee; reflexivity|].
    unfold mean_then, mean_weight. rewrite EB, S1. f_equal. rewrite (Rsum_nth (map exp (p_ws p1))), map_length, (gd_ws _ _ Gp1). unfold sumto. f_equal. apply map_ext_in. intros b Hb. apply in_seq in Hb.
    destruct (N b ltac:(lia)) as (t & f & r & Et & Ef & Er & Es & Ew & Fi & Ec). unfold weight_at, likelihood_at. rewrite G1, G2, G3, G4, S2, nth_error_map, Et, Ef, Er. cbn [option_map mass].
    rewrite (fa_step _ _ _ _ _ _ _ _ _ _ _ _ _ _ _ _ FD) by exact Hj. rewrite (mass_num _ Fi), <- exp_plus. symmetry. apply nth_of. rewrite nth_error_map, Ew. reflexivity.
  Qed.
  Lemma set_same (w : nat -> blk) j : set_at w j (w j) = w.
  Proof. apply functional_extensionality. intros i. unfold set_at. destruct (Nat.eqb_spec i j) as [->|]; reflexivity. Qed.
  Lemma update_chain a w (FD : drawn a w) j p g s n : j < List.length ys -> sched j = true -> blk_ok (w j) -> good (S j) p ->
    g_ctx g = p_ctx p -> g_np g = np -> g_rnd g = pos j + 1 -> s_w s = map Fin (p_ws p) -> s_fs s = p_fs p -> s_data s = Some (firstn (S j) ys) ->
    let p' := renewed j (fst (snd (w j))) (snd (snd (w j))) p in
    pmmh_update (E a w) c n g s = (n, World (p_ctx p') (p_ctx p') np (pos (S j)) (S (g_updates g)), Ok (Same (St (map Fin (p_ws p')) (p_fs p') (s_ess s) (s_data s) (s_iter s)))).
  Proof.
    intros Hj Sj (Hq & Hu & Pm) Gp G1 G3 G4 S1 S2 S3 p'. destruct (w j) as [q [u m]] eqn:Ew. cbn [fst snd] in *.
    pose proof (fa_moves _ _ _ _ _ _ _ _ _ _ _ _ _ _ _ _ FD j Hj Sj) as UD. rewrite Ew in UD. cbn [fst] in UD. set (E' := fun u m => E a (set_at w j (q, (u, m)))) in UD.
    assert (EE : E' u m = E a w) by (unfold E'; rewrite <- Ew; now rewrite set_same).
    destruct (update_is E' LU pick cand (filt (S j)) B np (pos j + 1) (firstn (S j) ys) lp lq UD FP HB c n g s (p_ws p) Hacc Hdist S3 S1 (gd_ws _ _ Gp)
      (eq_trans (f_equal (@List.length T) G1) (gd_ctx _ _ Gp)) (eq_trans (f_equal (@List.length (F * xf)) S2) (gd_fs _ _ Gp)) G4 G3 u m Hu) as (rw & fs & kk & rn & accs & ctx' & fs' & L1 & L2 & N & Q1 & Q2 & Ek & Em & Ep).
    rewrite EE in Ep. rewrite Ep. rewrite G1 in Q1. rewrite S2 in Q2.
    assert (Lf : List.length (firstn (S j) ys) = S j) by (rewrite firstn_length; lia).
    destruct (moves_chain cand (filt (S j)) B lp lq E' pick np (pos j + 1) (firstn (S j) ys) UD c Hacc Hdist u m k 0 0 0 0 kk rw rw fs (Rle_refl 0)) as [accs' Em']. rewrite Nat.mul_0_l, Nat.add_0_r in Em'. rewrite Lf in Em'. rewrite Em' in Em. injection Em as <- <- <- _.
    assert (Ep' : p' = (let r := chain_moves cand (filt (S j)) B lp lq k 0 m rw fs in Pop (fst r) (snd r) (repeat 0%R B) (p_z p * mean_weight B (p_ws p))%R)) by (unfold p', renewed; now rewrite Q1, Q2).
    assert (Z : zeros (map Fin (p_ws p)) = map Fin (repeat 0%R B)).
    { unfold zeros. rewrite map_map, <- (gd_ws _ _ Gp). clear. induction (p_ws p) as [|x l IH]; cbn [map List.length repeat]; [reflexivity|]. now rewrite IH. }
    rewrite Ep', Z. cbv zeta. unfold with_w, with_fs. cbn [p_ctx p_fs p_ws s_w s_fs s_ess s_data s_iter]. do 3 f_equal. cbn [position]. rewrite Sj. cbn [Nat.add]. lia.
  Qed.
  (** The particles [p] are rejuvenated after observation [j] if that is scheduled. *)
  Definition triggers (j : nat) (lowest : R) (p : @pop T F) : Prop := forall e arg, get_ess lowest (map Fin (p_ws p)) false = Ok (Fin e, arg) ->
    if sched j then (e < c_threshold c (S j) * INR B)%R else (c_threshold c (S j) * INR B <= e)%R.
  Lemma scheduled_triggers j lowest p : scheduled c B sched -> good (S j) p -> triggers j lowest p.
  Proof.
    intros SC Gp e arg Ee. assert (Ne : p_ws p <> []) by (intros X; pose proof (gd_ws _ _ Gp) as X'; rewrite X in X'; cbn in X'; lia). destruct (ess_fin lowest _ Ne) as (e' & Ee' & Be). rewrite Ee in Ee'. injection Ee' as <- _.
    rewrite (gd_ws _ _ Gp) in Be. pose proof (SC j) as X. assert (PB : (0 < INR B)%R) by now apply lt_0_INR. destruct (sched j); nra.
  Qed.
  Lemma step_matches a w (FD : drawn a w) j y p al s cbs : nth_error ys j = Some y -> blk_ok (w j) -> good j p -> matches j p al s -> triggers j (e_lowest (E a w)) (absorbed (fst (w j)) y p) ->
    exists al' s' calls, step (E a w) (Plain (SMC2 c)) cbs al y s = (al', Ok (s', calls)) /\ matches (S j) (next j (w j) p) al' s' /\
      ((if g_updates (a_world al') =? g_updates (a_world al) then 1 else mean_then (E a w) (a_world al) y s) * p_z p = p_z (next j (w j) p))%R.
  Proof.
    intros Ey Hw Gp [M1 M2 M3 M4 M5 M6 M7 M8] Tr. assert (Hj : j < List.length ys) by now apply in_range with y. pose proof (next_good j p (w j) Hj Hw Gp) as Gn.
    set (s0 := St (s_w s) (s_fs s) (s_ess s) (Some (firstn j ys ++ [y])) (s_iter s)).
    destruct (absorb_is a w FD j y p s0 (a_world al) Ey (proj1 Hw) Gp M1 M2 M3 M4 M5 M6) as (e & Ee & Ea & Emw).
    assert (Emw' : mean_then (E a w) (a_world al) y s = mean_weight B (p_ws (absorbed (fst (w j)) y p))) by exact Emw. clear Emw.
    pose proof (absorbed_good j p (fst (w j)) y Ey (proj1 Hw) Gp) as Gp1. revert Gn. unfold next. rewrite Ey. cbv zeta. intros Gn. set (p1 := absorbed (fst (w j)) y p) in *.
    assert (Ne : forall q i, good i q -> p_ws q <> []) by (intros q i Gq X; pose proof (gd_ws _ _ Gq) as X'; rewrite X in X'; cbn in X'; lia).
    assert (NF : forall l, nonfinite (map Fin l) = false) by (induction l as [|x l IH]; [reflexivity|exact IH]).
    unfold step, step_, base_step. rewrite M7. change (St (s_w s) (s_fs s) (s_ess s) (Some (firstn j ys ++ [y])) (s_iter s)) with s0. rewrite Ea. cbn [s_ess s_w]. rewrite newest_snoc, app_length, (NF (p_ws p1)), orb_false_r.
    cbn [List.length s0 s_ess]. rewrite M8. replace (S j + 1 - 1) with (S j) by lia. rewrite (fa_size _ _ _ _ _ _ _ _ _ _ _ _ _ _ _ _ FD). pose proof (Tr e _ Ee) as Sj'.
    cbn [s0 s_data s_iter s_ess]. rewrite <- (firstn_next ys j y Ey). destruct (sched j) eqn:Sj.
    - assert (X : xlt (Fin e) (Fin (c_threshold c (S j) * INR B)) = true). { cbn [xlt]. destruct (Rlt_dec _ _) as [_|C]; [reflexivity|]. exfalso. apply C. exact Sj'. }
      rewrite X. rewrite (update_chain a w FD j p1 (tick 1 (a_world al)) _ (i_increases (a_first al)) Hj Sj Hw Gp1); try reflexivity; try assumption; [|cbn; now rewrite M4].
      cbn [s_ess s_data s_iter tick g_updates seen_by_callbacks]. set (p2 := renewed j _ _ p1) in *.
      edestruct (callbacks_same (E a w) cbs y (St (map Fin (p_ws p2)) (p_fs p2) (s_ess s ++ [Fin e]) (Some (firstn (S j) ys)) (s_iter s)) (p_ws p2)) as [calls Ec]; [reflexivity|now apply (Ne p2 (S j))|].
      rewrite Ec. eexists _, _, calls. split; [reflexivity|]. split; [constructor; cbn; try reflexivity; rewrite app_length, M8; cbn; lia|].
      cbn [a_world g_updates tick]. replace (S (g_updates (a_world al)) =? g_updates (a_world al)) with false by (symmetry; apply Nat.eqb_neq; lia).
      rewrite Emw'. unfold p2. destruct (renewed_is (S j) p1 (fst (snd (w j))) (snd (snd (w j))) Gp1 (proj1 (proj2 Hw))) as (rw & fs & _ & _ & _ & _ & _ & ->). cbn [p_z]. unfold p1. cbn [absorbed p_z]. ring.
    - assert (X : xlt (Fin e) (Fin (c_threshold c (S j) * INR B)) = false). { cbn [xlt]. destruct (Rlt_dec _ _) as [C|_]; [lra|reflexivity]. }
      rewrite X. cbn [seen_by_callbacks].
      edestruct (callbacks_same (E a w) cbs y (St (map Fin (p_ws p1)) (p_fs p1) (s_ess s ++ [Fin e]) (Some (firstn (S j) ys)) (s_iter s)) (p_ws p1)) as [calls Ec]; [reflexivity|now apply (Ne p1 (S j))|].
      rewrite Ec. eexists _, _, calls. split; [reflexivity|]. split; [constructor; cbn; try assumption; try reflexivity|].
      + rewrite M4, Sj. lia.
      + rewrite app_length, M8. cbn. lia.
      + cbn [a_world tick g_updates]. rewrite Nat.eqb_refl. unfold p1. cbn [absorbed p_z]. ring.
  Qed.
  Definition V (h : T * (F * xf) -> R) (p : @pop T F) : R := (p_z p * weights_sum B (p_ws p) h (p_ctx p) (p_fs p))%R.
  Lemma fit_value_is a w (FD : drawn a w) cbs h : supp LA a -> (forall j, blk_ok (w j)) -> (forall j y, nth_error ys j = Some y -> triggers j (e_lowest (E a w)) (absorbed (fst (w j)) y (after j a w))) -> forall r j al s, j + List.length r = List.length ys -> r = skipn j ys -> matches j (after j a w) al s ->
    (p_z (after j a w) * fit_value (E a w) (Plain (SMC2 c)) cbs h al r s = V h (after (List.length ys) a w))%R.
  Proof.
    intros Ha Hw Tr. induction r as [|y r IH]; intros j al s Hj Er Mt; cbn [fit_value].
    - cbn [List.length] in Hj. rewrite Nat.add_0_r in Hj. subst j. unfold V. f_equal. destruct Mt as [M1 M2 M3 M4 M5 M6 M7 M8]. unfold weights_value, weights_sum. rewrite (fa_size _ _ _ _ _ _ _ _ _ _ _ _ _ _ _ _ FD), M1, M5, M6. f_equal. f_equal.
      apply map_ext_in. intros b Hb. apply in_seq in Hb. f_equal. unfold weight_at. rewrite nth_error_map. destruct (nth_error (p_ws _) b) as [x|] eqn:Eb; cbn [option_map mass]; [now rewrite (nth_of _ _ _ 0%R Eb)|].
      exfalso. apply nth_error_None in Eb. rewrite (gd_ws _ _ (after_good a w Ha Hw _ (le_n _))) in Eb. lia.
    - cbn [List.length] in Hj. assert (Ey : nth_error ys j = Some y) by (rewrite <- (firstn_skipn j ys), nth_error_app2 by (rewrite firstn_length; lia); rewrite firstn_length, <- Er, Nat.min_l by lia; now rewrite Nat.sub_diag).
      destruct (step_matches a w FD j y (after j a w) al s cbs Ey (Hw j) (after_good a w Ha Hw j ltac:(lia)) Mt (Tr j y Ey)) as (al' & s' & calls & Es & Mt' & Ez). rewrite Es.
      rewrite <- (IH (S j) al' s'); [|lia| |exact Mt'].
      + cbn [after]. rewrite <- Ez. ring.
      + assert (X : skipn 1 (skipn j ys) = skipn (S j) ys) by (clear; revert ys; induction j as [|j IH]; intros [|y ys]; cbn; try reflexivity; apply IH). rewrite <- X, <- Er. reflexivity.
  Qed.
  Lemma whole_is a w (FD : drawn a w) cbs h : supp LA a -> (forall j, blk_ok (w j)) -> (forall j y, nth_error ys j = Some y -> triggers j (e_lowest (E a w)) (absorbed (fst (w j)) y (after j a w))) ->
    whole_fit (E a w) (Plain (SMC2 c)) cbs np rnd (rows a) ys h = V h (after (List.length ys) a w).
  Proof.
    intros Ha Hw Tr. destruct (tg_rows _ _ _ _ _ _ _ _ _ _ _ _ _ _ _ _ TG a Ha) as [Lr _]. pose proof (fa_size _ _ _ _ _ _ _ _ _ _ _ _ _ _ _ _ FD) as EB.
    unfold whole_fit, initialize_alg, new_state. rewrite EB. replace (repeat (Fin 0) B) with (map Fin (repeat 0%R B)) by (clear; induction B as [|n IH]; cbn; [reflexivity|now rewrite IH]).
    destruct (ess_fin (e_lowest (E a w)) (repeat 0%R B)) as (e & Ee & _); [intros X; pose proof (repeat_length 0%R B) as X'; rewrite X in X'; cbn in X'; lia|]. rewrite Ee. cbn [bind keeps_data].
    match goal with |- fit_value _ _ _ _ ?al _ ?ss = _ => rewrite <- (fit_value_is a w FD cbs h Ha Hw Tr ys 0 al ss eq_refl eq_refl) end.
    - cbn [after start p_z]. symmetry. apply Rmult_1_l.
    - constructor; try reflexivity. cbn [s_fs after start p_fs new_alg a_world g_rnd g_np]. assert (L0 : List.length (init_result (E a w) rnd np (rows a) (rows a)) = B) by (pose proof (init_len (E a w) rnd np (rows a) (rows a)) as X; rewrite EB in X; now apply X).
      apply same_lists; [rewrite L0, map_length, combine_length, seq_length; lia|]. intros b Hb. rewrite L0 in Hb. destruct (nth_some (rows a) b ltac:(lia)) as [t Et].
      rewrite (init_nth (E a w) rnd np (rows a) (rows a) b t t eq_refl Et Et), nth_error_map, <- Lr, (combine_seq_nth _ b t Et). cbn [option_map fst snd]. now rewrite (fa_init _ _ _ _ _ _ _ _ _ _ _ _ _ _ _ _ FD).
  Qed.

  Lemma drawn_all : fit_draws E init advance pick cand filt B np rnd k sched ys lp lq -> forall a w, drawn a w.
  Proof. intros FD a w. constructor; [apply FD|intros; apply (fd_init _ _ _ _ _ _ _ _ _ _ _ _ _ _ FD)|intros; now apply (fd_step _ _ _ _ _ _ _ _ _ _ _ _ _ _ FD)|intros; now apply (fd_moves _ _ _ _ _ _ _ _ _ _ _ _ _ _ FD)]. Qed.
  Context (FD : fit_draws E init advance pick cand filt B np rnd k sched ys lp lq).

  (** ** Averages *)
  Lemma absorbed_mean j p y h : nth_error ys j = Some y -> good j p -> H (S j) h -> averages LQ (fun q => V h (absorbed q y p)) (V (future LQ advance y h) p).
  Proof.
    intros Ey Gp Hh. destruct (tg_test _ _ _ _ _ _ _ _ _ _ _ _ _ _ _ _ TG j y h Ey Hh) as [_ Te]. unfold V.
    change (averages LQ (fun q => p_z p * (/ INR B * Rsum (map (fun b => exp (nth b (p_ws (absorbed q y p)) 0) * particle_value h (p_ctx p) (p_fs (absorbed q y p)) b) (seq 0 B))))%R (p_z p * weights_sum B (p_ws p) (future LQ advance y h) (p_ctx p) (p_fs p))%R).
    apply averages_scal; [exact HQ|]. unfold weights_sum. apply averages_scal; [exact HQ|].
    apply averages_sum; [exact HQ|]. intros b Hb. apply in_seq in Hb. assert (Hb' : b < B) by lia. destruct (slot_nth j p b Gp Hb') as (t & f & r & Et & Ef & Er & _ & In). rewrite (nth_of _ _ _ 0%R Er). unfold particle_value at 2. rewrite Et, Ef.
    refine (averages_ext LQ HQ _ _ _ _ (averages_scal LQ HQ (exp r) _ _ (Te (t, f) b In Hb'))). intros q Hq. cbv beta.
    destruct (absorbed_nth j p q y b Gp Hb') as (t' & f' & r' & Et' & Ef' & Er' & Es & Ew & _). rewrite Et in Et'. injection Et' as <-. rewrite Ef in Ef'. injection Ef' as <-. rewrite Er in Er'. injection Er' as <-.
    pose proof (proj2 (tg_among _ _ _ _ _ _ _ _ _ _ _ _ _ _ _ _ TG j y (t, f) q b Ey In Hq Hb')) as Fi. cbn [fst snd] in Fi.
    rewrite (nth_of _ _ _ 0%R Ew). unfold particle_value. rewrite Et, Es.
    unfold gain. cbn [fst snd]. rewrite (mass_num _ Fi), exp_plus. change (t, snd (adv q b y (t, f))) with (adv q b y (t, f)). ring.
  Qed.
  Notation AM j := (after_moves L cand (filt (S j)) lp lq 0 k).
  Lemma even_sum (h : T * (F * xf) -> R) ctx fs : weights_sum B (repeat 0%R B) h ctx fs = particle_mean B h ctx fs.
  Proof.
    unfold weights_sum, particle_mean. do 2 f_equal. apply map_ext_in. intros b Hb. apply in_seq in Hb. rewrite nth_repeat. rewrite exp_0. apply Rmult_1_l.
  Qed.
  Lemma renewed_mean (a : A) (w0 : nat -> blk) (q0 : Q) base j p h : j < List.length ys -> sched j = true -> good (S j) p -> H (S j) h -> possible L (uniforms B) base ->
    averages (and_then LU (streams L (uniforms B) k base)) (fun um => V h (renewed j (fst um) (snd um) p)) (V (AM j h) p).
  Proof.
    intros Hj Sj Gp Hh Pb. pose proof (fd_moves _ _ _ _ _ _ _ _ _ _ _ _ _ _ FD a w0 j q0 Hj Sj) as UD. set (E' := fun u m => E a (set_at w0 j (q0, (u, m)))) in UD.
    set (g := World (p_ctx p) (p_ctx p) np (pos j + 1) 0). set (s := St (map Fin (p_ws p)) (p_fs p) [] (Some (firstn (S j) ys)) 0).
    pose proof (tg_slots _ _ _ _ _ _ _ _ _ _ _ _ _ _ _ _ TG j Sj) as SS. pose proof (fun b d z Hb => tg_closed _ _ _ _ _ _ _ _ _ _ _ _ _ _ _ _ TG j b d z Sj Hb) as Cl.
    pose proof (fun z => tg_proper _ _ _ _ _ _ _ _ _ _ _ _ _ _ _ _ TG (S j) z) as Pr. pose proof (fun b Hb => tg_testable _ _ _ _ _ _ _ _ _ _ _ _ _ _ _ _ TG j b Sj Hb) as Te.
    pose proof (value_mean E' LU HU L HL pick cand (filt (S j)) B np (pos j + 1) (firstn (S j) ys) lp lq UD FP SS HB (M (S j)) Cl Pr (G j) (H (S j)) Te c 0 g s (p_ws p) Hacc Hdist eq_refl eq_refl (gd_ws _ _ Gp) (gd_ctx _ _ Gp) (gd_fs _ _ Gp) eq_refl eq_refl (gd_in _ _ Gp) h Hh base) as Vm.
    pose proof (value_copy E' LU L HL pick cand (filt (S j)) B np (pos j + 1) (firstn (S j) ys) lp lq UD FP SS HB (M (S j)) Cl Pr (G j) (H (S j)) Te c 0 g s (p_ws p) Hacc Hdist eq_refl eq_refl (gd_ws _ _ Gp) (gd_ctx _ _ Gp) (gd_fs _ _ Gp) eq_refl eq_refl (gd_in _ _ Gp) h Hh) as Vc.
    assert (Sl : law_ok (streams L (uniforms B) k base)) by (apply streams_ok; [exact HL|apply uniforms_law|exact Pb]).
    assert (Re : forall u m, supp LU u -> V h (renewed j u m p) = (p_z p * mean_weight B (p_ws p) * rejuvenated (E' u m) c 0 g s B h)%R).
    { intros u m Hu. destruct (renewed_is (S j) p u m Gp Hu) as (rw & fs & Q1 & Q2 & L1 & L2 & N & ->). cbv zeta. unfold V. cbn [p_z p_ws p_ctx p_fs]. rewrite even_sum. f_equal.
      destruct (update_is E' LU pick cand (filt (S j)) B np (pos j + 1) (firstn (S j) ys) lp lq UD FP HB c 0 g s (p_ws p) Hacc Hdist eq_refl eq_refl (gd_ws _ _ Gp) (gd_ctx _ _ Gp) (gd_fs _ _ Gp) eq_refl eq_refl u m Hu)
        as (rw' & fs' & kk & rn & accs & ctx2 & fs2 & _ & _ & _ & Q1' & Q2' & _ & Em & Ep).
      cbn [g s g_ctx s_fs] in Q1', Q2'. rewrite Q1 in Q1'. injection Q1' as <-. rewrite Q2 in Q2'. injection Q2' as <-.
      destruct (moves_chain cand (filt (S j)) B lp lq E' pick np (pos j + 1) (firstn (S j) ys) UD c Hacc Hdist u m k 0 0 0 0 kk rw rw fs (Rle_refl 0)) as [accs' Em']. rewrite Nat.mul_0_l, Nat.add_0_r in Em'. rewrite Em' in Em. injection Em as <- <- _ _.
      unfold rejuvenated. rewrite Ep. reflexivity. }
    assert (EV : V (AM j h) p = (p_z p * mean_weight B (p_ws p) * weighted_mean B (shares (p_ws p)) (AM j h) (p_ctx p) (p_fs p))%R).
    { unfold V. rewrite Rmult_assoc. f_equal. symmetry. exact (mean_weight_shares B np (pos j + 1) HB g s (p_ws p) eq_refl (gd_ws _ _ Gp) (gd_ctx _ _ Gp) (gd_fs _ _ Gp) eq_refl eq_refl (AM j h) (p_ctx p) (p_fs p)). }
    rewrite EV.
    apply (and_then_is LU (streams L (uniforms B) k base) HU Sl _ (fun u => p_z p * mean_weight B (p_ws p) * average L (uniforms B) k 0 (fun m => rejuvenated (E' u m) c 0 g s B h) base)%R).
    - intros u Hu. cbn [fst snd]. apply (averages_ext _ Sl (fun m => p_z p * mean_weight B (p_ws p) * rejuvenated (E' u m) c 0 g s B h)%R); [intros m _; symmetry; now apply Re|].
      apply averages_scal; [exact Sl|]. split; [exact (proj1 (Vc u base Hu))|reflexivity].
    - apply averages_scal; [exact HU|exact Vm].
  Qed.
  (** The average of [h] one observation later. *)
  Definition onto_next (j : nat) (h : T * (F * xf) -> R) : T * (F * xf) -> R :=
    match nth_error ys j with Some y => future LQ advance y (if sched j then AM j h else h) | None => h end.
  Lemma moves_test j h : H (S j) h -> H (S j) (if sched j then AM j h else h).
  Proof. intros Hh. destruct (sched j) eqn:Sj; [|exact Hh]. apply (after_test L cand (filt (S j)) lp lq 0 (M (S j)) (G j) (H (S j))); [|exact Hh]. exact (tg_testable _ _ _ _ _ _ _ _ _ _ _ _ _ _ _ _ TG j 0 Sj HB). Qed.
  Lemma onto_test j h : j < List.length ys -> H (S j) h -> H j (onto_next j h).
  Proof. intros Hj Hh. destruct (nth_some ys j Hj) as [y Ey]. unfold onto_next. rewrite Ey. apply (tg_test _ _ _ _ _ _ _ _ _ _ _ _ _ _ _ _ TG j y _ Ey). now apply moves_test. Qed.
  Lemma next_mean (a : A) (w0 : nat -> blk) base j p h : j < List.length ys -> good j p -> H (S j) h -> possible L (uniforms B) base ->
    averages (blocks LQ LU L B k base) (fun bl => V h (next j bl p)) (V (onto_next j h) p).
  Proof.
    intros Hj Gp Hh Pb. destruct (nth_some ys j Hj) as [y Ey]. unfold onto_next, next. rewrite Ey.
    assert (Sl : law_ok (streams L (uniforms B) k base)) by (apply streams_ok; [exact HL|apply uniforms_law|exact Pb]). pose proof (and_then_ok LU _ HU Sl) as Sm.
    apply (and_then_is LQ _ HQ Sm _ (fun q => V (if sched j then AM j h else h) (absorbed q y p))).
    - intros q Hq. cbn [fst snd]. pose proof (absorbed_good j p q y Ey Hq Gp) as G1. destruct (sched j) eqn:Sj; [now apply (renewed_mean a w0 q)|]. now apply averages_const.
    - apply (absorbed_mean j p y _ Ey Gp). now apply moves_test.
  Qed.
  Fixpoint back (n j : nat) (h : T * (F * xf) -> R) : T * (F * xf) -> R := match n with 0 => h | S n => onto_next j (back n (S j) h) end.
  Lemma back_test n h : forall j, j + n = List.length ys -> H (List.length ys) h -> H j (back n j h).
  Proof. induction n as [|n IH]; intros j Hj Hh; cbn [back]; [rewrite <- Hj, Nat.add_0_r in Hh; exact Hh|]. apply onto_test; [lia|]. apply IH; [lia|exact Hh]. Qed.
  Lemma blocks_ok base : possible L (uniforms B) base -> law_ok (blocks LQ LU L B k base).
  Proof. intros Pb. apply and_then_ok; [exact HQ|]. apply and_then_ok; [exact HU|]. apply streams_ok; [exact HL|apply uniforms_law|exact Pb]. Qed.
  Lemma after_mean a w0 base h : supp LA a -> (forall j, blk_ok (w0 j)) -> possible L (uniforms B) base -> H (List.length ys) h ->
    forall j, j <= List.length ys -> averages (independent (blocks LQ LU L B k base) j w0) (fun w => V (back (List.length ys - j) j h) (after j a w)) (V (back (List.length ys) 0 h) (start a)).
  Proof.
    intros Ha Hw Pb Hh. pose proof (blocks_ok base Pb) as Bo. assert (Hw' : forall j, supp (blocks LQ LU L B k base) (w0 j)) by (intros j; destruct (Hw j) as (X1 & X2 & X3); split; [exact X1|now split]).
    induction j as [|j IH]; intros Hj; [split; [exact I|]; cbn [independent mean after]; now rewrite Nat.sub_0_r|].
    pose proof (independent_ok _ Bo w0 Hw' j) as Io. specialize (IH ltac:(lia)).
    assert (X : forall u, supp (independent (blocks LQ LU L B k base) j w0) u -> averages (blocks LQ LU L B k base) (fun bl => V (back (List.length ys - S j) (S j) h) (after (S j) a (set_at u j bl))) (V (back (List.length ys - j) j h) (after j a u))).
    { intros u Hu. apply supp_independent with (1 := Hw') in Hu || (rewrite supp_independent in Hu). assert (Hu' : forall i, blk_ok (u i)) by (intros i; destruct (Hu i) as (X1 & X2 & X3); repeat split; try assumption; apply X3).
      replace (List.length ys - j) with (S (List.length ys - S j)) by lia. cbn [back].
      refine (averages_ext _ Bo _ _ _ _ (next_mean a w0 base j (after j a u) (back (List.length ys - S j) (S j) h) ltac:(lia) (after_good a u Ha Hu' j ltac:(lia)) (back_test (List.length ys - S j) h (S j) ltac:(lia) Hh) Pb)).
      intros bl _. cbn [after]. f_equal. unfold set_at at 1. rewrite Nat.eqb_refl. f_equal. apply after_local. intros i Hi. unfold set_at. destruct (Nat.eqb_spec i j); [lia|reflexivity]. }
    assert (Y' : averages (independent (blocks LQ LU L B k base) j w0) (fun u => mean (blocks LQ LU L B k base) (fun bl => V (back (List.length ys - S j) (S j) h) (after (S j) a (set_at u j bl)))) (V (back (List.length ys) 0 h) (start a))).
    { refine (averages_ext _ Io _ _ _ _ IH). intros u Hu. symmetry. apply (X u Hu). }
    split; [split; [apply Y'|intros u Hu; apply (X u Hu)]|apply Y'].
  Qed.
  Lemma onto_integral j h m : j < List.length ys -> H (S j) h -> integral (M (S j)) (fun z => height z * h z)%R m -> integral (M j) (fun z => height z * onto_next j h z)%R m.
  Proof.
    intros Hj Hh Hm. destruct (nth_some ys j Hj) as [y Ey]. unfold onto_next. rewrite Ey. pose proof (moves_test j h Hh) as Ht. set (h' := if sched j then AM j h else h) in *.
    assert (Hm' : integral (M (S j)) (fun z => height z * h' z)%R m).
    { unfold h'. destruct (sched j) eqn:Sj; [|exact Hm]. exact (onwards_integral snd (fun t => xsub (lp t) (Fin (lq t))) 0 L HL (M (S j)) (HM (S j)) (fun d b (_ : T) => cand d b) (filt (S j)) (G j) (H (S j)) (tg_testable _ _ _ _ _ _ _ _ _ _ _ _ _ _ _ _ TG j 0 Sj HB) (tg_reversible _ _ _ _ _ _ _ _ _ _ _ _ _ _ _ _ TG j Sj) k h m Hh Hm). }
    refine (integral_ext _ (HM j) _ _ _ _ (tg_step _ _ _ _ _ _ _ _ _ _ _ _ _ _ _ _ TG j y h' m Ey Ht Hm')). intros z Hz.
    pose proof (proj2 (tg_test _ _ _ _ _ _ _ _ _ _ _ _ _ _ _ _ TG j y h' Ey Ht) z 0 Hz HB) as A1.
    refine (proj2 (averages_ext LQ HQ _ _ _ _ (averages_scal LQ HQ (height z) _ _ A1))). intros q Hq. cbv beta. destruct (tg_among _ _ _ _ _ _ _ _ _ _ _ _ _ _ _ _ TG j y z q 0 Ey Hz Hq HB) as [Z1 Fi].
    destruct (tg_proper _ _ _ _ _ _ _ _ _ _ _ _ _ _ _ _ TG j z Hz) as [P1 P2]. rewrite <- Rmult_assoc. f_equal. unfold target, posterior, gain, advanced. cbn [fst snd].
    rewrite Rmult_assoc. f_equal. destruct (snd (advance q 0 (fst z) y (fst (snd z)))) as [v| | |]; try contradiction. destruct (snd (snd z)) as [x| | |]; try contradiction; cbn [xadd mass]; [symmetry; apply exp_plus|ring].
  Qed.
  Lemma back_integral n h m : forall j, j + n = List.length ys -> H (List.length ys) h -> integral (M (List.length ys)) (fun z => height z * h z)%R m -> integral (M j) (fun z => height z * back n j h z)%R m.
  Proof.
    induction n as [|n IH]; intros j Hj Hh Hm; cbn [back]; [rewrite Nat.add_0_r in Hj; subst j; exact Hm|]. apply onto_integral; [lia|apply back_test; [lia|exact Hh]|]. apply IH; [lia|exact Hh|exact Hm].
  Qed.
  Lemma start_value a h : supp LA a -> V h (start a) = (/ INR B * Rsum (map (fun b => at_slot (rows a) b (fun t => h (t, (init a b t, Fin 0)))) (seq 0 B)))%R.
  Proof.
    intros Ha. destruct (tg_rows _ _ _ _ _ _ _ _ _ _ _ _ _ _ _ _ TG a Ha) as [Lr _]. unfold V. cbn [start p_z p_ws p_ctx p_fs]. rewrite Rmult_1_l, even_sum. unfold particle_mean. do 2 f_equal. apply map_ext_in. intros b Hb. apply in_seq in Hb.
    unfold particle_value, at_slot. destruct (nth_error (rows a) b) as [t|] eqn:Et; [|reflexivity]. rewrite nth_error_map, <- Lr, (combine_seq_nth _ b t Et). reflexivity.
  Qed.
  Lemma fit_exact cbs base w0 h m : scheduled c B sched -> (forall j, blk_ok (w0 j)) -> possible L (uniforms B) base -> H (List.length ys) h -> integral (M (List.length ys)) (fun z => height z * h z)%R m ->
    averages (all_draws LA LQ LU L B k ys base w0) (fun q => whole_fit (E (fst q) (snd q)) (Plain (SMC2 c)) cbs np rnd (rows (fst q)) ys h) m.
  Proof.
    intros SC Hw Pb Hh Hm. pose proof (blocks_ok base Pb) as Bo. assert (Hw' : forall j, supp (blocks LQ LU L B k base) (w0 j)) by (intros j; destruct (Hw j) as (X1 & X2 & X3); split; [exact X1|now split]).
    pose proof (independent_ok _ Bo w0 Hw' (List.length ys)) as Io.
    apply (and_then_is LA _ HA Io _ (fun a => V (back (List.length ys) 0 h) (start a))).
    - intros a Ha. cbn [fst snd]. pose proof (after_mean a w0 base h Ha Hw Pb Hh (List.length ys) (le_n _)) as A1. rewrite Nat.sub_diag in A1. cbn [back] in A1.
      refine (averages_ext _ Io _ _ _ _ A1). intros w Hu. rewrite supp_independent in Hu. assert (Hu' : forall i, blk_ok (w i)) by (intros i; destruct (Hu i) as (X1 & X2 & X3); repeat split; try assumption; apply X3).
      symmetry. apply whole_is; [now apply drawn_all|exact Ha|exact Hu'|]. intros j y Ey. apply scheduled_triggers; [exact SC|]. apply absorbed_good; [exact Ey|apply Hu'|]. apply (after_good a w Ha Hu'). apply Nat.lt_le_incl. now apply in_range with y.
    - apply (averages_ext LA HA (fun a => / INR B * Rsum (map (fun b => at_slot (rows a) b (fun t => back (List.length ys) 0 h (t, (init a b t, Fin 0)))) (seq 0 B)))%R); [intros a Ha; symmetry; now apply start_value|].
      apply (tg_start _ _ _ _ _ _ _ _ _ _ _ _ _ _ _ _ TG); [now apply back_test|]. now apply back_integral.
  Qed.
End Fit.
