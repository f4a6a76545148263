(** C93: a logger sees every iteration it asked for, is closed whatever happens, and does not change the outcome. *)
From Coq Require Import Reals List Bool Arith Lia.
From Verif.Model Require Import Base Xf Pmmh Sequential Logging.
From Verif.Spec Require Import SequentialSpec.
From Verif.Proofs Require Import SequentialProofs SequentialToy.
From Verif.Props Require Import SequentialProps.
Import ListNotations.
Local Open Scope nat_scope.

(** Iterations at which a logger with [log_every_iteration = k] is to call its function. *)
Definition due (k i : nat) : bool := i mod k =? 0.
(** A function that looks at the state and returns. *)
Definition looks {S} (l : logger S) : Prop := 0 < l_every l /\ forall s, l_func l s = Ok s.
(** Calls, and nothing else. *)
Definition is_call {S} (e : event S) : Prop := exists s, e = ECall s.

(** Whatever the function and the algorithm do, the logger is started once, first, and closed once, last. *)
Section Closed.
  Context {T F Y K : Type} (E : env T F Y K).
  Lemma do_log_calls {S} (l : logger S) i s : List.Forall is_call (fst (do_log l i s)).
  Proof. unfold do_log. destruct (_ =? 0); [constructor|]. destruct (_ =? 0); repeat constructor. exists s. reflexivity. Qed.
  Lemma run_logged_calls c cbs l : forall ys a s, List.Forall is_call (fst (snd (run_logged E c cbs l a ys s))).
  Proof.
    induction ys as [|y ys IH]; intros a s; cbn [run_logged]; [constructor|]. destruct (step E c cbs a y s) as [a' [[s' calls]|e]]; [|constructor].
    pose proof (do_log_calls l (s_iter s') s') as D. destruct (do_log l (s_iter s') s') as [ev [s''|e]]; cbn [fst snd] in *; [|exact D].
    specialize (IH a' s''). destruct (run_logged E c cbs l a' ys s'') as [a'' [more x]]. cbn [fst snd] in *. apply Forall_app. auto.
  Qed.
  Lemma iterate_logged_calls ll log_prior build log_prob exchange (l : logger (@chains T F K * list (list T))) :
    forall n i rvs run uniforms s, List.Forall is_call (fst (iterate_logged ll log_prior build log_prob exchange l n i rvs run uniforms s)).
  Proof.
    induction n as [|n IH]; intros i rvs run uniforms s; cbn [iterate_logged]; [constructor|]. cbv zeta.
    match goal with |- context [do_log l i ?x] => set (s' := x) end.
    pose proof (do_log_calls l i s') as D. destruct (do_log l i s') as [ev [s''|e]]; cbn [fst snd] in *; [|exact D].
    specialize (IH (S i) rvs run uniforms s''). destruct (iterate_logged _ _ _ _ _ l n (S i) rvs run uniforms s'') as [more x]. cbn [fst snd] in *. apply Forall_app. auto.
  Qed.

  Theorem C93_closed : forall c cbs l a drawn placed ys, exists calls,
    List.Forall is_call calls /\ fst (snd (fit_logged E c cbs l a drawn placed ys)) = EStart (List.length ys) :: calls ++ [EClose].
  Proof.
    intros c cbs l a drawn placed ys. unfold fit_logged. destruct (initialize_alg E c a drawn placed) as [a' [s|e]].
    - pose proof (run_logged_calls c cbs l ys a' s) as H. destruct (run_logged E c cbs l a' ys s) as [a'' x]. exists (fst x). split; [exact H|reflexivity].
    - exists []. split; [constructor|reflexivity].
  Qed.
  Theorem C93_closed_pmmh : forall ll log_prior build log_prob exchange (l : logger (@chains T F K * list (list T))) n drawn mean first_run rvs run uniforms,
    (exists calls, List.Forall is_call calls /\
       fst (pmmh_logged ll log_prior build log_prob exchange l InitMean n drawn mean first_run rvs run uniforms) = EStart n :: calls ++ [EClose])
    /\ forall i, i <> InitMean -> pmmh_logged ll log_prior build log_prob exchange l i n drawn mean first_run rvs run uniforms = ([], Raise NotImplementedError).
  Proof.
    intros. split.
    - cbn [pmmh_logged initialize]. eexists. split; [|reflexivity]. apply iterate_logged_calls.
    - intros [| |] H; [reflexivity|contradiction|reflexivity].
  Qed.
End Closed.
Print Assumptions C93_closed.
Print Assumptions C93_closed_pmmh.

Section Sequential.
  Context {T F Y K : Type} (E : env T F Y K).
  Notation sstate := (@sstate F Y).

  (** The states after each observation, as far as the run gets. *)
  Fixpoint visited (c : cfg) (cbs : list callback) (a : alg) (ys : list Y) (s : sstate) : list sstate :=
    match ys with
    | [] => []
    | y :: r => match step E c cbs a y s with (a', Ok (s', _)) => s' :: visited c cbs a' r s' | (_, Raise _) => [] end
    end.
  Lemma visited_prefix c cbs : forall ys a s i t, nth_error (visited c cbs a ys s) i = Some t ->
    exists calls, snd (run E c cbs a (firstn (S i) ys) s) = Ok (t, calls).
  Proof.
    induction ys as [|y ys IH]; intros a s i t H; cbn [visited] in H; [destruct i; discriminate|].
    cbn [firstn run]. destruct (step E c cbs a y s) as [a' [[s' calls]|e]]; [|destruct i; discriminate].
    destruct i as [|i]; cbn in H.
    - injection H as <-. cbn. eauto.
    - destruct (IH a' s' i t H) as [more Q]. destruct ys as [|y' ys']; [destruct i; discriminate|].
      destruct (run E c cbs a' (firstn (S i) (y' :: ys')) s') as [a'' r]. cbn [snd] in *. subst r. cbn. eauto.
  Qed.
  Lemma visited_all c cbs : forall ys a s, match snd (run E c cbs a ys s) with
    | Ok _ => List.length (visited c cbs a ys s) = List.length ys
    | Raise e => List.length (visited c cbs a ys s) < List.length ys /\ snd (run E c cbs a (firstn (S (List.length (visited c cbs a ys s))) ys) s) = Raise e
    end.
  Proof.
    induction ys as [|y ys IH]; intros a s; [reflexivity|]. cbn [run visited].
    destruct (step E c cbs a y s) as [a' [[s' calls]|e]] eqn:St.
    2:{ cbn [snd List.length firstn run]. rewrite St. cbn. split; [lia|reflexivity]. }
    specialize (IH a' s'). destruct (run E c cbs a' ys s') as [a'' r]. cbn [snd] in *. destruct r as [[s'' more]|e]; cbn [bind].
    - cbn [List.length]. now rewrite IH.
    - destruct IH as [L R]. cbn [List.length]. split; [lia|]. set (n := List.length (visited c cbs a' ys s')) in *.
      change (firstn (S (S n)) (y :: ys)) with (y :: firstn (S n) ys). cbn [run]. rewrite St.
      destruct (run E c cbs a' (firstn (S n) ys) s') as [b q]. cbn [snd] in *. subst q. reflexivity.
  Qed.
  Lemma run_logged_looks c cbs l : looks l -> forall ys a s,
    run_logged E c cbs l a ys s =
      (fst (run E c cbs a ys s), (map ECall (filter (fun t => due (l_every l) (s_iter t)) (visited c cbs a ys s)), snd (run E c cbs a ys s))).
  Proof.
    intros [Pos Look]. induction ys as [|y ys IH]; intros a s; [reflexivity|]. cbn [run_logged run visited].
    destruct (step E c cbs a y s) as [a' [[s' calls]|e]]; [|reflexivity]. unfold do_log.
    destruct (Nat.eqb_spec (l_every l) 0); [lia|]. unfold due at 1. cbn [filter].
    destruct (s_iter s' mod l_every l =? 0); rewrite ?Look; rewrite (IH a' s');
      destruct (run E c cbs a' ys s') as [a'' r]; cbn [fst snd map app]; destruct r as [[s'' more]|e]; reflexivity.
  Qed.

  Lemma due_states {A} (it : A -> nat) (P : nat -> A -> Prop) (d : nat -> bool) : forall v b,
    (forall i t, nth_error v i = Some t -> it t = b + i /\ P (b + i) t) ->
    Forall2 P (filter d (seq b (List.length v))) (filter (fun t => d (it t)) v).
  Proof.
    induction v as [|x v IH]; intros b H; cbn [List.length seq filter]; [constructor|].
    destruct (H 0 x eq_refl) as [I Px]. rewrite Nat.add_0_r in I, Px. rewrite I.
    assert (R : Forall2 P (filter d (seq (S b) (List.length v))) (filter (fun t => d (it t)) v)).
    { apply IH. intros i t N. destruct (H (S i) t N) as [Q W]. rewrite Nat.add_succ_r in Q, W. auto. }
    destruct (d b); [constructor; auto|exact R].
  Qed.

  (** The function is called with the states after observation k, 2k, ... in this order, as far as the run gets; and
      the outcome is that of the run without a logger. *)
  Theorem C93_sequential : forall (OK : env_ok E) c cbs l a drawn placed ys, looks l -> compatible c ->
    List.length drawn = e_B E -> List.length placed = e_B E -> a_switched a = false ->
    exists n states,
      fit_logged E c cbs l a drawn placed ys =
        (fst (fit_alg E c cbs a drawn placed ys), (EStart (List.length ys) :: map ECall states ++ [EClose], snd (fit_alg E c cbs a drawn placed ys)))
      /\ Forall2 (fun i s => exists calls, snd (fit_alg E c cbs a drawn placed (firstn i ys)) = Ok (s, calls)) (filter (due (l_every l)) (seq 1 n)) states
      /\ match snd (fit_alg E c cbs a drawn placed ys) with
         | Ok _ => n = List.length ys
         | Raise e => n < List.length ys /\ snd (fit_alg E c cbs a drawn placed (firstn (S n) ys)) = Raise e
         end.
  Proof.
    intros OK c cbs l a drawn placed ys L Co L1 L2 Sw.
    pose proof (fun zs => C50_bookkeeping E OK c cbs a drawn placed zs Co L1 L2 Sw) as Book.
    unfold fit_logged, fit_alg in *. destruct (initial_ok E OK c a drawn placed L1 L2) as [e I]. rewrite I in *.
    match goal with |- context [run_logged E c cbs l ?x ys ?z] => set (a0 := x) in *; set (s0 := z) in * end. clearbody a0 s0.
    rewrite (run_logged_looks c cbs l L). cbn [with_logger fst snd]. set (v := visited c cbs a0 ys s0).
    exists (List.length v), (filter (fun t => due (l_every l) (s_iter t)) v). split; [reflexivity|]. split; [|exact (visited_all c cbs ys a0 s0)].
    assert (H : forall i t, nth_error v i = Some t -> s_iter t = S i /\ exists calls, snd (run E c cbs a0 (firstn (S i) ys) s0) = Ok (t, calls)).
    { intros i t N. destruct (visited_prefix c cbs ys a0 s0 i t N) as [calls Q]. split; [|eauto].
      specialize (Book (firstn (S i) ys)). rewrite Q in Book. destruct Book as [-> _]. rewrite firstn_length.
      assert (i < List.length v) by (apply nth_error_Some; congruence). pose proof (visited_all c cbs ys a0 s0) as V. fold v in V.
      destruct (snd (run E c cbs a0 ys s0)); lia. }
    exact (due_states s_iter (fun i t => exists calls, snd (run E c cbs a0 (firstn i ys) s0) = Ok (t, calls)) (due (l_every l)) v 1 H).
  Qed.
End Sequential.
Print Assumptions C93_sequential.

Lemma Forall2_weaken {A B} (P Q : A -> B -> Prop) : (forall a b, P a b -> Q a b) -> forall l m, Forall2 P l m -> Forall2 Q l m.
Proof. intros H l m F. induction F; constructor; auto. Qed.

Lemma Forall2_same_length {A B} (P : A -> B -> Prop) : forall l m, Forall2 P l m -> List.length l = List.length m.
Proof. intros l m F. induction F; cbn; congruence. Qed.

Section Chains.
  Context {T F K : Type}.
  Variable ll : F -> xf.
  Variable log_prior : T -> xf.
  Variable build : list T -> list xf -> list F -> K.
  Variable log_prob : K -> list T -> list xf.
  Variable exchange_kernel : K -> K -> list bool -> K.

  Lemma iterate_logged_looks (l : logger (@chains T F K * list (list T))) rvs run uniforms : looks l -> forall n i s,
    exists states, iterate_logged ll log_prior build log_prob exchange_kernel l n i rvs run uniforms s =
        (map ECall states, Ok (iterate ll log_prior build log_prob exchange_kernel n i rvs run uniforms (fst s) (snd s)))
      /\ Forall2 (fun j t => exists m, j = i + m /\ t = iterate ll log_prior build log_prob exchange_kernel (S m) i rvs run uniforms (fst s) (snd s))
           (filter (due (l_every l)) (seq i n)) states.
  Proof.
    intros [Pos Look]. induction n as [|n IH]; intros i s; [exists []; split; [destruct s; reflexivity|constructor]|].
    cbn [iterate_logged iterate seq]. cbv zeta. match goal with |- context [do_log l i ?x] => set (s' := x) end.
    destruct (IH (S i) s') as (states & Q & A). unfold do_log. destruct (Nat.eqb_spec (l_every l) 0); [lia|]. cbn [filter]. unfold due at 1.
    assert (A' : Forall2 (fun j t => exists m, j = i + m /\ t = iterate ll log_prior build log_prob exchange_kernel (S m) i rvs run uniforms (fst s) (snd s))
           (filter (due (l_every l)) (seq (S i) n)) states).
    { eapply Forall2_weaken; [|exact A]. cbv beta. intros j t (m & -> & ->). exists (S m). split; [lia|reflexivity]. }
    destruct (i mod l_every l =? 0); rewrite ?Look, Q.
    - exists (s' :: states). split; [reflexivity|]. constructor; [|exact A']. exists 0. split; [lia|reflexivity].
    - exists states. split; [reflexivity|exact A'].
  Qed.

  (** The same for PMMH, whose iterations are counted from zero: the state logged for iteration i is that of a fit with i + 1 samples. *)
  Theorem C93_pmmh : forall (l : logger (@chains T F K * list (list T))) n drawn mean first_run rvs run uniforms, looks l ->
    exists states,
      pmmh_logged ll log_prior build log_prob exchange_kernel l InitMean n drawn mean first_run rvs run uniforms =
        (EStart n :: map ECall states ++ [EClose], fit ll log_prior build log_prob exchange_kernel InitMean n drawn mean first_run rvs run uniforms)
      /\ Forall2 (fun i s => fit ll log_prior build log_prob exchange_kernel InitMean (S i) drawn mean first_run rvs run uniforms = Ok s)
           (filter (due (l_every l)) (seq 0 n)) states.
  Proof.
    intros l n drawn mean first_run rvs run uniforms L. cbn [pmmh_logged fit initialize bind].
    match goal with |- context [iterate_logged _ _ _ _ _ _ _ _ _ _ _ ?x] => set (s := x) end.
    destruct (iterate_logged_looks l rvs run uniforms L n 0 s) as (states & -> & A). exists states. split; [reflexivity|].
    eapply Forall2_weaken; [|exact A]. cbv beta. intros j t (m & -> & ->). reflexivity.
  Qed.
End Chains.
Print Assumptions C93_pmmh.

(** How many calls that makes: of T observations every k-th, of n samples the first and every k-th after it. *)
Lemma due_step : forall k n, 0 < k -> S n / k = n / k + (if due k (S n) then 1 else 0).
Proof.
  intros k n H. unfold due. pose proof (Nat.div_mod n k) as D. pose proof (Nat.mod_upper_bound n k) as U.
  pose proof (Nat.div_mod (S n) k) as D'. pose proof (Nat.mod_upper_bound (S n) k) as U'.
  destruct (Nat.eqb_spec (S n mod k) 0); nia.
Qed.
Theorem C93_counts : forall k n, 0 < k ->
  List.length (filter (due k) (seq 1 n)) = n / k /\ List.length (filter (due k) (seq 0 n)) = (n + k - 1) / k.
Proof.
  intros k n H.
  assert (A : forall m, List.length (filter (due k) (seq 1 m)) = m / k).
  { induction m as [|m IH]; [now rewrite Nat.div_0_l by lia|]. rewrite seq_S, filter_app, app_length, IH, due_step by lia.
    cbn [filter Nat.add]. destruct (due k (S m)); reflexivity. }
  split; [apply A|]. destruct n as [|n].
  - cbn. symmetry. apply Nat.div_small. lia.
  - cbn [seq filter]. replace (due k 0) with true by (unfold due; rewrite Nat.mod_0_l by lia; reflexivity).
    cbn [List.length]. rewrite A. replace (S n + k - 1) with (n + 1 * k) by lia. rewrite Nat.div_add by lia. lia.
Qed.
Print Assumptions C93_counts.

(** The progress bar: it is told the number of iterations, advances by one with each, and is closed. *)
Lemma bar_calls {A} : forall (states : list A) b, fold_left bar_event (map ECall states) b = Bar (b_total b) (b_count b + List.length states) (b_closed b).
Proof.
  induction states as [|s states IH]; intros b; cbn [map fold_left List.length]; [destruct b; cbn; now rewrite Nat.add_0_r|].
  rewrite IH. cbn. f_equal. lia.
Qed.
Lemma bar_whole {A} : forall n (states : list A), bar_after (EStart n :: map ECall states ++ [EClose]) = Bar (Some n) (List.length states) true.
Proof. intros n states. unfold bar_after. cbn [fold_left]. rewrite fold_left_app, bar_calls. reflexivity. Qed.
Lemma due_one : forall l, filter (due 1) l = l.
Proof. induction l as [|x l IH]; cbn [filter]; [reflexivity|]. unfold due at 1. rewrite Nat.mod_1_r. cbn [Nat.eqb]. now rewrite IH. Qed.
Lemma looks_tqdm {A} : looks (@tqdm A).
Proof. split; [cbn; lia|reflexivity]. Qed.

Theorem C93_bar : forall {T F Y K} (E : env T F Y K), env_ok E -> forall c cbs a drawn placed ys, compatible c ->
  List.length drawn = e_B E -> List.length placed = e_B E -> a_switched a = false ->
  exists n, bar_after (fst (snd (fit_logged E c cbs tqdm a drawn placed ys))) = Bar (Some (List.length ys)) n true
    /\ match snd (snd (fit_logged E c cbs tqdm a drawn placed ys)) with Ok _ => n = List.length ys | Raise _ => n < List.length ys end.
Proof.
  intros T F Y K E OK c cbs a drawn placed ys Co L1 L2 Sw.
  destruct (C93_sequential E OK c cbs tqdm a drawn placed ys looks_tqdm Co L1 L2 Sw) as (n & states & -> & A & B).
  exists n. cbn [fst snd]. cbn [l_every tqdm] in A. rewrite due_one in A. apply Forall2_same_length in A. rewrite seq_length in A.
  rewrite bar_whole, <- A. split; [reflexivity|]. destruct (snd (fit_alg E c cbs a drawn placed ys)); tauto.
Qed.
Theorem C93_bar_pmmh : forall {T F K} ll log_prior build log_prob exchange n drawn mean first_run rvs run uniforms,
  bar_after (fst (@pmmh_logged T F K ll log_prior build log_prob exchange tqdm InitMean n drawn mean first_run rvs run uniforms)) = Bar (Some n) n true.
Proof.
  intros. destruct (C93_pmmh ll log_prior build log_prob exchange tqdm n drawn mean first_run rvs run uniforms looks_tqdm) as (states & -> & A).
  cbn [fst]. cbn [l_every tqdm] in A. rewrite due_one in A. apply Forall2_same_length in A. rewrite seq_length in A. now rewrite bar_whole, <- A.
Qed.
Print Assumptions C93_bar.
Print Assumptions C93_bar_pmmh.

(** A function that raises ends the fit with its exception, after the calls made so far; and so does a logger for every
    zeroth iteration. *)
Theorem C93_raising : forall {T F Y K} (E : env T F Y K) c cbs l a y ys s a' s' calls e,
  step E c cbs a y s = (a', Ok (s', calls)) -> l_every l <> 0 -> due (l_every l) (s_iter s') = true -> l_func l s' = Raise e ->
  run_logged E c cbs l a (y :: ys) s = (a', ([ECall s'], Raise e)).
Proof.
  intros T F Y K E c cbs l a y ys s a' s' calls e St N D R. cbn [run_logged]. rewrite St. unfold do_log.
  destruct (Nat.eqb_spec (l_every l) 0); [contradiction|]. unfold due in D. rewrite D, R. reflexivity.
Qed.
Print Assumptions C93_raising.

(** NESS over three observations, of which every second is logged. *)
Example C93_nonvacuous : exists a s1 r,
  fit_logged (toy false) (Plain (NESS (1 / 2) false)) [] (Logger (fun s => Ok s) 2) (new_alg 100 0) [0; 1] [0; 1] [flat; flat; flat]
    = (a, ([EStart 3; ECall s1; EClose], Ok r)) /\ s_iter s1 = 2 /\ s_iter (fst r) = 3.
Proof.
  set (c := Plain (NESS (1 / 2) false)).
  assert (Run : forall ys a s, world_ok (toy false) (a_world a) -> state_ok (toy false) s -> exists r, snd (run (toy false) c [] a ys s) = Ok r).
  { induction ys as [|y ys IH]; intros a s W1 W2; [exists (s, []); reflexivity|]. cbn [run].
    pose proof (step_frame (toy false) (toy_ok false) c [] a y s W1 W2) as H. destruct (step (toy false) c [] a y s) as [a' [[s' calls]|e]].
    - destruct H as (A1 & A2 & _). destruct (IH a' s' A1 A2) as [[s'' more] Q]. destruct (run (toy false) c [] a' ys s') as [a'' x]. cbn [snd] in *. subst x. cbn. eauto.
    - destruct H as (c' & H & _). discriminate. }
  assert (Fit : forall ys, exists r, snd (fit_alg (toy false) c [] (new_alg 100 0) [0; 1] [0; 1] ys) = Ok r).
  { intros ys. unfold fit_alg. destruct (initial_ok (toy false) (toy_ok false) c (new_alg 100 0) [0; 1] [0; 1] eq_refl eq_refl) as [e ->].
    apply Run; split; reflexivity. }
  pose proof (C93_sequential (toy false) (toy_ok false) c [] (Logger (fun s => Ok s) 2) (new_alg 100 0) [0; 1] [0; 1] [flat; flat; flat]
    (conj (Nat.lt_0_succ 1) (fun s => eq_refl)) I eq_refl eq_refl eq_refl) as (n & states & -> & A & B).
  pose proof (fun zs => C50_bookkeeping (toy false) (toy_ok false) c [] (new_alg 100 0) [0; 1] [0; 1] zs I eq_refl eq_refl eq_refl) as Book.
  destruct (Fit [flat; flat; flat]) as [[s3 calls3] Q]. pose proof (Book [flat; flat; flat]) as B3. rewrite Q in B, B3 |- *. subst n.
  cbn [l_every List.length] in A. change (filter (due 2) (seq 1 3)) with [2] in A. inversion A as [|? s2 ? rest (calls2 & Q2) R E1 E2]; subst. inversion R; subst. cbn [firstn] in Q2.
  pose proof (Book [flat; flat]) as B2. rewrite Q2 in B2. do 3 eexists. split; [reflexivity|]. cbn [fst]. tauto.
Qed.
