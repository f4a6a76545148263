(** Backward sampling through the states of the exact filter follows the posterior of the path. *)
From Coq Require Import Reals List Bool Arith Lia Lra.
From Verif.Model Require Import Base Xf Tensor Weights Particle Smoothing.
From Verif.Spec Require Import WeightsSpec ResamplingSpec ParticleSpec SmoothingSpec UnbiasedSpec ConvergeSpec BackwardSpec.
From Verif.Proofs Require Import WeightsProofs MomentsProofs ParticleProofs UnbiasedProofs UnbiasedFilter BackwardProofs.
Import ListNotations.
Local Open Scope nat_scope.

(** * Sums over lists *)
Section Sums.
  Context {A : Type}.
  Definition over (l : list A) (f : A -> R) : R := Rsum (map f l).
  Lemma over_ext l f g : (forall x, In x l -> f x = g x) -> over l f = over l g.
  Proof. intros H. unfold over. f_equal. now apply map_ext_in. Qed.
  Lemma over_cons a l f : over (a :: l) f = (f a + over l f)%R.
  Proof. reflexivity. Qed.
  Lemma over_scal l a f : over l (fun x => a * f x)%R = (a * over l f)%R.
  Proof. induction l as [|x l IH]; [unfold over; cbn; ring|]. rewrite !over_cons, IH. ring. Qed.
  Lemma over_add l f g : over l (fun x => f x + g x)%R = (over l f + over l g)%R.
  Proof. induction l as [|x l IH]; [unfold over; cbn; ring|]. rewrite !over_cons, IH. ring. Qed.
  Lemma over_zero l f : (forall x, In x l -> f x = 0%R) -> over l f = 0%R.
  Proof. intros H. rewrite (over_ext l f (fun _ => 0 * 0)%R) by (intros; rewrite H by assumption; ring). rewrite over_scal. ring. Qed.
  Lemma over_nonneg l f : (forall x, In x l -> (0 <= f x)%R) -> (0 <= over l f)%R.
  Proof.
    induction l as [|x l IH]; intros H; [unfold over; cbn; lra|]. rewrite over_cons. apply Rplus_le_le_0_compat; [apply H; now left|]. apply IH. intros y Hy. apply H. now right.
  Qed.
  Lemma over_one_le l f x : (forall x, In x l -> (0 <= f x)%R) -> In x l -> (f x <= over l f)%R.
  Proof.
    induction l as [|y l IH]; intros H Hx; [destruct Hx|]. rewrite over_cons. destruct Hx as [->|Hx].
    - assert (0 <= over l f)%R by (apply over_nonneg; intros; apply H; now right). lra.
    - assert (0 <= f y)%R by (apply H; now left). assert (f x <= over l f)%R by (apply IH; [intros; apply H; now right|exact Hx]). lra.
  Qed.
  Lemma over_all_zero l f x : (forall x, In x l -> (0 <= f x)%R) -> over l f = 0%R -> In x l -> f x = 0%R.
  Proof. intros H E Hx. pose proof (over_one_le l f x H Hx). pose proof (H x Hx). lra. Qed.
  Lemma over_single (eq_dec : forall x y : A, {x = y} + {x <> y}) l x f : NoDup l -> In x l -> over l (fun y => f y * if eq_dec y x then 1 else 0)%R = f x.
  Proof.
    intros Hd. induction Hd as [|y l Hn Hd IH]; intros Hx; [destruct Hx|]. rewrite over_cons. destruct (eq_dec y x) as [->|N].
    - rewrite over_zero; [ring|]. intros z Hz. destruct (eq_dec z x) as [->|_]; [contradiction|ring].
    - destruct Hx as [->|Hx]; [contradiction|]. rewrite (IH Hx). ring.
  Qed.
  Lemma over_nth l f d : sum_below (length l) (fun k => f (nth k l d)) = over l f.
  Proof.
    unfold sum_below, over. f_equal. apply (nth_ext _ _ (f d) (f d)); rewrite !map_length, seq_length; [reflexivity|]. intros k Hk.
    rewrite (nth_indep _ (f d) (f (nth 0 l d))) by (now rewrite map_length, seq_length). rewrite (map_nth (fun k => f (nth k l d))), seq_nth by exact Hk.
    rewrite map_nth. reflexivity.
  Qed.
End Sums.
Lemma over_swap {A B} (l : list A) (m : list B) (f : A -> B -> R) : over l (fun x => over m (f x)) = over m (fun y => over l (fun x => f x y)).
Proof.
  induction l as [|x l IH].
  - symmetry. now apply over_zero.
  - rewrite over_cons, IH, <- over_add. apply over_ext. reflexivity.
Qed.

Section Chain.
  Context {X : Type}.
  Variables (xs : list X) (start : X -> R) (dens : nat -> X -> X -> R) (obs : nat -> X -> R).
  Variable dflt : X.
  Notation paths := (over_paths xs start dens obs).
  Notation onw := (onward xs dens obs).

  (** The unnormalised filter. *)
  Fixpoint alpha (t : nat) (x : X) : R :=
    match t with
    | O => (start x * obs 0 x)%R
    | S t => (obs (S t) x * over xs (fun y => alpha t y * dens t y x))%R
    end.
  (** Paths of one more move. *)
  Definition extend (t : nat) (F : list X -> R) (p : list X) : R := over xs (fun x => dens t (last p dflt) x * obs (S t) x * F (p ++ [x]))%R.

  Lemma onward_ext m : forall t past x F G, (forall p x', F (p ++ [x']) = G (p ++ [x'])) -> onw m t past x F = onw m t past x G.
  Proof.
    induction m as [|m IH]; intros t past x F G H; cbn [onward].
    - cbn [rev]. apply H.
    - apply (over_ext xs). intros x' _. now rewrite (IH _ _ _ F G H).
  Qed.
  Lemma paths_ext m F G : (forall p x', F (p ++ [x']) = G (p ++ [x'])) -> paths m F = paths m G.
  Proof. intros H. apply (over_ext xs). intros x _. now rewrite (onward_ext m 0 [] x F G H). Qed.
  Lemma onward_extend m : forall t past x F, onw (S m) t past x F = onw m t past x (extend (t + m) F).
  Proof.
    induction m as [|m IH]; intros t past x F.
    - cbn [onward]. unfold extend. cbn [rev]. rewrite last_last, Nat.add_0_r. apply (over_ext xs). intros x' _. reflexivity.
    - change (onw (S (S m)) t past x F) with (over xs (fun x' => dens t x x' * obs (S t) x' * onw (S m) (S t) (x :: past) x' F)%R).
      change (onw (S m) t past x (extend (t + S m) F)) with (over xs (fun x' => dens t x x' * obs (S t) x' * onw m (S t) (x :: past) x' (extend (t + S m) F))%R).
      apply (over_ext xs). intros x' _. rewrite (IH (S t) (x :: past) x' F). now replace (S t + m) with (t + S m) by lia.
  Qed.
  Lemma paths_extend m F : paths (S m) F = paths m (extend m F).
  Proof. apply (over_ext xs). intros x _. now rewrite onward_extend. Qed.
  Lemma paths_last t : forall h, paths t (fun p => h (last p dflt)) = over xs (fun y => alpha t y * h y)%R.
  Proof.
    induction t as [|t IH]; intros h.
    - apply (over_ext xs). intros x _. reflexivity.
    - rewrite paths_extend. rewrite (paths_ext t _ (fun p => (fun y => over xs (fun x => dens t y x * obs (S t) x * h x)%R) (last p dflt))).
      + rewrite (IH (fun y => over xs (fun x => dens t y x * obs (S t) x * h x)%R)). rewrite (over_ext xs _ (fun y => over xs (fun x => alpha t y * dens t y x * obs (S t) x * h x)%R)).
        * rewrite over_swap. apply over_ext. intros x _. cbn [alpha]. rewrite <- over_scal, Rmult_comm, <- over_scal. apply over_ext. intros y _. ring.
        * intros y _. rewrite <- over_scal. apply over_ext. intros x _. ring.
      + intros p x'. unfold extend. apply over_ext. intros x _. now rewrite !last_last.
  Qed.
  Lemma paths_total t : paths t (fun _ => 1%R) = over xs (alpha t).
  Proof. rewrite (paths_last t (fun _ => 1%R)). apply over_ext. intros; ring. Qed.
  Lemma filtered_alpha eq_dec t x : NoDup xs -> In x xs -> filtered xs start dens obs eq_dec t x = (alpha t x / over xs (alpha t))%R.
  Proof.
    intros Hd Hx. unfold filtered, posterior. rewrite paths_total. f_equal.
    rewrite (paths_ext t _ (fun p => (fun y => if eq_dec y x then 1 else 0)%R (last p dflt))) by (intros p x'; now rewrite !last_last).
    rewrite (paths_last t (fun y => if eq_dec y x then 1 else 0)%R). now apply over_single.
  Qed.

  Hypothesis Hstart : forall x, (0 <= start x)%R.
  Hypothesis Hdens : forall t x x', (0 <= dens t x x')%R.
  Hypothesis Hobs : forall t x, (0 <= obs t x)%R.
  Lemma alpha_nonneg t : forall x, (0 <= alpha t x)%R.
  Proof.
    induction t as [|t IH]; intros x; cbn [alpha]; apply Rmult_le_pos; auto. apply over_nonneg. intros y _. now apply Rmult_le_pos.
  Qed.

  (** Backward averages with the unnormalised filter. *)
  Fixpoint bk (t : nat) (x : X) (later : list X) (F : list X -> R) : R :=
    match t with
    | O => F (x :: later)
    | S t => over xs (fun y => alpha t y * dens t y x / over xs (fun y => alpha t y * dens t y x) * bk t y (x :: later) F)%R
    end.
  Lemma bk_ext t : forall x later F G, (forall p, F (p ++ x :: later) = G (p ++ x :: later)) -> bk t x later F = bk t x later G.
  Proof.
    induction t as [|t IH]; intros x later F G H; cbn [bk]; [exact (H [])|]. apply over_ext. intros y _. f_equal. apply IH. intros p.
    specialize (H (p ++ [y])). now rewrite <- !app_assoc in H.
  Qed.
  Lemma bk_later t : forall x later z F, bk t x (later ++ z) F = bk t x later (fun p => F (p ++ z)).
  Proof. induction t as [|t IH]; intros x later z F; cbn [bk]; [reflexivity|]. apply over_ext. intros y _. f_equal. apply (IH y (x :: later) z F). Qed.
  Lemma bk_scal t : forall x later c F, bk t x later (fun p => c * F p)%R = (c * bk t x later F)%R.
  Proof. induction t as [|t IH]; intros x later c F; cbn [bk]; [reflexivity|]. rewrite <- over_scal. apply over_ext. intros y _. rewrite IH. ring. Qed.
  Lemma bk_over {B} t : forall x later (l : list B) (F : B -> list X -> R), bk t x later (fun p => over l (fun b => F b p)) = over l (fun b => bk t x later (F b)).
  Proof.
    induction t as [|t IH]; intros x later l F; cbn [bk]; [reflexivity|]. rewrite over_swap. apply over_ext. intros y _. rewrite IH, <- over_scal. reflexivity.
  Qed.
  Lemma bk_paths t : forall F, over xs (fun x => alpha t x * bk t x [] F)%R = paths t F.
  Proof.
    induction t as [|t IH]; intros F.
    - apply (over_ext xs). intros x _. reflexivity.
    - rewrite paths_extend, <- IH.
      rewrite (over_ext xs _ (fun x => over xs (fun y => alpha t y * (dens t y x * obs (S t) x * bk t y [] (fun p => F (p ++ [x]))))%R)).
      + rewrite over_swap. apply over_ext. intros y _. rewrite over_scal. f_equal.
        rewrite (bk_ext t y [] (extend t F) (fun p => over xs (fun x => dens t y x * obs (S t) x * F (p ++ [x])))%R).
        * rewrite bk_over. apply over_ext. intros x _. now rewrite bk_scal.
        * intros p. unfold extend. apply over_ext. intros x _. now rewrite last_last.
      + intros x _. cbn [bk alpha]. set (Z := over xs (fun y => alpha t y * dens t y x)%R).
        rewrite <- over_scal. apply over_ext. intros y Hy.
        assert (Eb : bk t y [x] F = bk t y [] (fun p => F (p ++ [x]))) by exact (bk_later t y [] [x] F). rewrite Eb.
        destruct (Req_dec Z 0) as [E|N].
        * assert (E0 : (alpha t y * dens t y x)%R = 0%R).
          { apply (over_all_zero xs (fun y => alpha t y * dens t y x)%R); [|exact E|exact Hy]. intros z _. apply Rmult_le_pos; [apply alpha_nonneg|apply Hdens]. }
          rewrite E0, E. replace (alpha t y * (dens t y x * obs (S t) x * bk t y [] (fun p => F (p ++ [x]))))%R
            with (alpha t y * dens t y x * (obs (S t) x * bk t y [] (fun p => F (p ++ [x]))))%R by ring. rewrite E0. ring.
        * field. exact N.
  Qed.
End Chain.

Section Exact.
  Context {X : Type}.
  Variables (lowest : R) (n b : nat).
  Variable eq_dec : forall x y : X, {x = y} + {x <> y}.
  Variables (xs : list X) (start : X -> R) (dens : nat -> X -> X -> R) (obs : nat -> X -> R).
  Variable j : nat.
  Hypothesis Hj : j < b.
  Hypothesis Hxs : NoDup xs.
  Hypothesis Hlen : length xs = n.
  Hypothesis Hn : 0 < n.
  Hypothesis Hstart : forall x, (0 <= start x)%R.
  Hypothesis Hdens : forall t x x', (0 <= dens t x x')%R.
  Hypothesis Hobs : forall t x, (0 <= obs t x)%R.
  Variable states : list (corr X).
  Hypothesis Hfine : Forall (fine n b) states.
  Hypothesis Hex : exact_states lowest j 1 eq_dec xs start dens obs states.
  Notation al := (alpha xs start dens obs).

  Lemma xs_inhabited : exists d, In d xs.
  Proof. destruct xs as [|d l]; [simpl in Hlen; lia|]. exists d. now left. Qed.
  Lemma over_n f d : sum_below n (fun k => f (nth k xs d)) = over xs f.
  Proof. rewrite <- Hlen. apply over_nth. Qed.
  Lemma exact_at q s d : nth_error states q = Some s -> ts_time (c_x s) = q /\
    (forall k, k < n -> place j s k = nth k xs d) /\ (forall k, k < n -> weight lowest j s k = (al q (nth k xs d) / over xs (al q))%R).
  Proof.
    intros H. destruct (Hex q s H) as (E1 & E2 & E3). assert (Rq : recorded_time 1 q = q) by (destruct q; cbn; lia). rewrite Rq in *. split; [exact E1|].
    assert (Hs : fine n b s) by (apply (proj1 (Forall_forall _ _) Hfine), (nth_error_In _ _ H)). destruct Hs as [[[X1 X2] _ _ _] _]. split.
    - intros k Hk. rewrite <- E2. symmetry. unfold place, col. rewrite X1. exact (nth_seq_map n (fun i => m_get (ts_val (c_x s)) i j) k d Hk).
    - intros k Hk. unfold weight. rewrite E3. rewrite (nth_indep _ 0%R (filtered xs start dens obs eq_dec q d)) by (rewrite map_length; lia). rewrite map_nth.
      apply (filtered_alpha xs start dens obs d eq_dec q); [exact Hxs|]. apply nth_In. lia.
  Qed.
  Lemma alpha_pos q s x : nth_error states q = Some s -> In x xs -> (0 < al q x)%R /\ (0 < over xs (al q))%R.
  Proof.
    intros H Hx. assert (Hs : fine n b s) by (apply (proj1 (Forall_forall _ _) Hfine), (nth_error_In _ _ H)).
    apply (In_nth _ _ x) in Hx. destruct Hx as (k & Hk & Ek). destruct (exact_at q s x H) as (_ & _ & W). rewrite Hlen in Hk. specialize (W k Hk). rewrite Ek in W.
    pose proof (weight_pos lowest n b j Hj s k Hs Hk) as P. rewrite W in P.
    pose proof (alpha_nonneg xs start dens obs Hstart Hdens Hobs q) as An.
    assert (Z : (al q x <= over xs (al q))%R) by (apply over_one_le; [intros; apply An|]; rewrite <- Ek; apply nth_In; lia).
    destruct (An x) as [A|A]; [split; lra|]. rewrite <- A in P. unfold Rdiv in P. rewrite Rmult_0_l in P. lra.
  Qed.
  Lemma exact_linked : linked n j dens states.
  Proof.
    destruct xs_inhabited as [d _].
    assert (G : forall l q, (forall i s, nth_error l i = Some s -> nth_error states (q + i) = Some s) -> linked n j dens l).
    { induction l as [|s l IH]; intros q H; [exact I|]. destruct l as [|s' l]; [exact I|]. split.
      - intros k Hk. pose proof (H 0 s eq_refl) as H0. pose proof (H 1 s' eq_refl) as H1. rewrite Nat.add_0_r in H0. rewrite Nat.add_1_r in H1.
        destruct (exact_at q s d H0) as (T0 & P0 & _). destruct (exact_at (S q) s' d H1) as (_ & P1 & _). rewrite T0, (P1 k Hk).
        set (x := nth k xs d). assert (Hx : In x xs) by (apply nth_In; lia). destruct (alpha_pos (S q) s' x H1 Hx) as [A _]. cbn [alpha] in A.
        assert (Ex : Exists (fun y => (0 < dens q y x)%R) xs).
        { destruct (Exists_dec (fun y => (0 < dens q y x)%R) xs) as [E|N]; [intros y; destruct (Rlt_dec 0 (dens q y x)); [now left|now right]|exact E|].
          exfalso. rewrite over_zero in A; [lra|]. intros y Hy.
          replace (dens q y x) with 0%R; [ring|]. destruct (Hdens q y x) as [D|D]; [|exact D]. exfalso. apply N. apply Exists_exists. now exists y. }
        apply Exists_exists in Ex. destruct Ex as (y & Hy & Py). apply (In_nth _ _ d) in Hy. destruct Hy as (k' & Hk' & Ek'). rewrite Hlen in Hk'.
        exists k'. split; [exact Hk'|]. now rewrite (P0 k' Hk'), Ek'.
      - apply (IH (S q)). intros i s0 Hi. replace (S q + i) with (q + S i) by lia. now apply H. }
    apply (G states 0). intros i s H. exact H.
  Qed.
  Lemma back_bk F : forall rest x later, (forall i s, nth_error (rev rest) i = Some s -> nth_error states i = Some s) ->
    back lowest n j dens rest x later F = bk xs start dens obs (length rest) x later F.
  Proof.
    destruct xs_inhabited as [d _]. induction rest as [|s rest IH]; intros x later H; [reflexivity|]. cbn [back length bk].
    assert (H0 : nth_error states (length rest) = Some s).
    { apply H. cbn [rev]. rewrite nth_error_app2 by (rewrite rev_length; lia). rewrite rev_length, Nat.sub_diag. reflexivity. }
    destruct (exact_at _ s d H0) as (T0 & P0 & W0). set (t := length rest) in *. destruct (xs_inhabited) as [e He]. destruct (alpha_pos t s e H0 He) as [_ PZ].
    assert (EA : forall k, k < n -> ancestry lowest j dens s x k = (/ over xs (al t) * (fun y => al t y * dens t y x) (nth k xs d))%R).
    { intros k Hk. unfold ancestry. rewrite T0, (P0 k Hk), (W0 k Hk). unfold Rdiv. ring. }
    rewrite (sb_ext n (ancestry lowest j dens s x) _ EA), sb_scal. rewrite (over_n (fun y => al t y * dens t y x)%R d).
    set (Z := over xs (fun y => al t y * dens t y x)%R). rewrite <- (over_n (fun y => al t y * dens t y x / Z * bk xs start dens obs t y (x :: later) F)%R d). apply sb_ext. intros k Hk.
    rewrite (EA k Hk), (P0 k Hk), IH.
    - f_equal. fold Z. destruct (Req_dec Z 0) as [E|N]; [|field; split; lra].
      assert (E0 : (al t (nth k xs d) * dens t (nth k xs d) x)%R = 0%R).
      { apply (over_all_zero xs (fun y => al t y * dens t y x)%R); [|exact E|apply nth_In; lia]. intros z _. apply Rmult_le_pos; [apply alpha_nonneg; assumption|apply Hdens]. }
      rewrite E0. unfold Rdiv. ring.
    - intros i s' Hi. apply H. cbn [rev]. rewrite nth_error_app1; [exact Hi|]. apply nth_error_Some. now rewrite Hi.
  Qed.
  Lemma exact_average F m : length states = S m -> backward_average lowest n j dens states F = posterior xs start dens obs m F.
  Proof.
    intros Hm. destruct xs_inhabited as [d _]. unfold backward_average. destruct (rev states) as [|s rest] eqn:Er.
    { apply (f_equal (@length _)) in Er. rewrite rev_length in Er. simpl in Er. lia. }
    assert (Est : states = rev (s :: rest)) by (rewrite <- Er, rev_involutive; reflexivity).
    assert (Lr : length rest = m) by (rewrite Est, rev_length in Hm; simpl in Hm; lia).
    assert (H0 : nth_error states m = Some s).
    { rewrite Est. cbn [rev]. rewrite nth_error_app2 by (rewrite rev_length; lia). rewrite rev_length, Lr, Nat.sub_diag. reflexivity. }
    destruct (exact_at m s d H0) as (_ & P0 & W0). unfold posterior. rewrite (paths_total xs start dens obs d), <- (bk_paths xs start dens obs d Hstart Hdens Hobs).
    rewrite (sb_ext n _ (fun k => / over xs (al m) * (fun x => al m x * bk xs start dens obs m x [] F) (nth k xs d)))%R.
    - rewrite sb_scal, (over_n (fun x => al m x * bk xs start dens obs m x [] F)%R d). unfold Rdiv. ring.
    - intros k Hk. rewrite (W0 k Hk), (P0 k Hk), back_bk, Lr.
      + unfold Rdiv. ring.
      + intros i s' Hi. rewrite Est. cbn [rev]. rewrite nth_error_app1; [exact Hi|]. apply nth_error_Some. now rewrite Hi.
  Qed.
End Exact.
