(** Properties C44, C45 (pyfilter/inference/context.py). *)
From Coq Require Import List Arith Lia.
From Verif.Model Require Import Base ContextStack.
From Verif.Spec Require Import ContextStackSpec.
Import ListNotations.

Lemma perform_other w t u ev : u <> t -> fst (perform w t ev) u = w u.
Proof.
  intros H. apply Nat.eqb_neq in H. unfold perform, put_stack.
  destruct ev; repeat match goal with |- context [match ?x with _ => _ end] => destruct x eqn:?; cbn [fst]; try rewrite H end; reflexivity.
Qed.

Lemma perform_all_app w l l' : perform_all w (l ++ l') = perform_all (perform_all w l) l'.
Proof. apply fold_left_app. Qed.

(** A thread's stack is a function of its own events. *)
Definition own_stack (evs : list event) : option (list nat) := perform_all no_stacks (map (pair 0) evs) 0.

Lemma own_stack_snoc evs ev : own_stack (evs ++ [ev]) = fst (perform (fun _ => own_stack evs) 0 ev) 0.
Proof.
  unfold own_stack. rewrite map_app, perform_all_app. cbn [map perform_all fold_left fst snd].
  set (w := perform_all no_stacks (map (pair 0) evs)). unfold perform, put_stack.
  destruct ev; repeat match goal with |- context [match ?x with _ => _ end] => destruct x eqn:?; cbn [fst Nat.eqb]; try congruence end; congruence.
Qed.

Lemma perform_local w w' t t' ev : w t = w' t' -> fst (perform w t ev) t = fst (perform w' t' ev) t' /\ snd (perform w t ev) = snd (perform w' t' ev).
Proof.
  intros E. unfold perform, put_stack. rewrite <- E.
  destruct ev; repeat match goal with |- context [match ?x with _ => _ end] => destruct x eqn:? end;
    cbn [fst snd]; rewrite ?Nat.eqb_refl; split; congruence.
Qed.

Lemma own_events l t : perform_all no_stacks l t = own_stack (own t l).
Proof.
  induction l as [|[u ev] l IH] using rev_ind; [reflexivity|].
  rewrite perform_all_app. cbn [perform_all fold_left fst snd]. unfold own. rewrite filter_app, map_app. cbn [filter fst].
  destruct (u =? t) eqn:E.
  - apply Nat.eqb_eq in E. subst u. cbn [map snd]. rewrite own_stack_snoc.
    apply (perform_local (perform_all no_stacks l) (fun _ => own_stack (own t l)) t 0 ev IH).
  - cbn [map]. rewrite app_nil_r. apply Nat.eqb_neq in E. rewrite perform_other by congruence. exact IH.
Qed.

Lemma list_remove_last c s : ~ In c s -> list_remove c (s ++ [c]) = Some s.
Proof.
  induction s as [|d s IH]; cbn; intros H; [now rewrite Nat.eqb_refl|].
  destruct (Nat.eqb_spec d c); [exfalso; apply H; now left|]. rewrite IH; [reflexivity|]. intros K. apply H. now right.
Qed.

Lemma own_stack_mono evs ev : own_stack evs <> None -> own_stack (evs ++ [ev]) <> None.
Proof.
  intros H. rewrite own_stack_snoc. destruct (own_stack evs) eqn:E; [|congruence].
  unfold perform, put_stack. destruct ev; repeat match goal with |- context [match ?x with _ => _ end] => destruct x eqn:? end; cbn [fst Nat.eqb]; discriminate.
Qed.

Lemma inside_nodup evs o : inside evs o -> NoDup o.
Proof. induction 1; auto; [constructor|now constructor|]. now apply NoDup_cons_iff in IHinside. Qed.

Lemma creates_first_snoc evs ev : creates_first (evs ++ [ev]) -> creates_first evs \/ (evs = filter (fun e => match e with Ask => true | _ => false end) evs /\ ev = New).
Proof.
  induction evs as [|e evs IH]; cbn.
  - destruct ev; try contradiction. now right.
  - destruct e; try contradiction; [now left|]. intros H. destruct (IH H) as [K|[K1 K2]]; [now left|right]. split; [|exact K2]. now f_equal.
Qed.

Lemma filter_le {A} (f : A -> bool) l : length (filter f l) <= length l.
Proof. induction l as [|a l IH]; cbn; [lia|]. destruct (f a); cbn; lia. Qed.

Lemma only_asks evs : evs = filter (fun e => match e with Ask => true | _ => false end) evs -> own_stack evs = None.
Proof.
  induction evs as [|e evs IH] using rev_ind; [reflexivity|]. rewrite filter_app. cbn [filter]. intros H.
  destruct e; try (exfalso; rewrite app_nil_r in H; apply (f_equal (@length _)) in H; rewrite app_length in H; cbn in H;
    pose proof (filter_le (fun e => match e with Ask => true | _ => false end) evs); lia).
  apply app_inj_tail in H. destruct H as [H _]. rewrite own_stack_snoc, (IH H). reflexivity.
Qed.

Lemma inside_asks evs o : inside evs o -> evs = filter (fun e => match e with Ask => true | _ => false end) evs -> o = [].
Proof.
  induction 1; intros E; try reflexivity; rewrite filter_app in E; cbn [filter] in E;
    try (exfalso; rewrite app_nil_r in E; apply (f_equal (@length _)) in E; rewrite app_length in E; cbn in E;
    pose proof (filter_le (fun e => match e with Ask => true | _ => false end) evs); lia).
  apply app_inj_tail in E. now apply IHinside.
Qed.

Lemma inside_stack evs o : inside evs o -> creates_first evs -> own_stack evs = Some (rev o).
Proof.
  induction 1 as [|evs o H IH|evs o H IH|evs o c H IH Hc|evs o c e H IH]; intros C; [contradiction| | | |];
    (destruct (creates_first_snoc _ _ C) as [C'|[C' E']]; [|try discriminate]).
  - rewrite own_stack_snoc, (IH C'). reflexivity.
  - rewrite own_stack_snoc, (only_asks _ C'). rewrite (inside_asks _ _ H C'). reflexivity.
  - rewrite own_stack_snoc, (IH C'). cbn. destruct (rev o); reflexivity.
  - rewrite own_stack_snoc, (IH C'). reflexivity.
  - rewrite own_stack_snoc, (IH C'). cbn [perform rev]. rewrite list_remove_last; [reflexivity|].
    intros K. apply in_rev in K. apply inside_nodup in H. apply NoDup_cons_iff in H. tauto.
Qed.

(** * C44 *)

(** In every interleaving, asking for the active context in a thread gives the innermost context that thread is inside,
    whatever the others do; leaving restores the previous one and lets an exception pass. *)
Theorem C44_innermost_partial : forall l t o,
  inside (own t l) o -> creates_first (own t l) ->
  let w := perform_all no_stacks l in
  perform w t Ask = (w, match o with [] => Raise GenericException | c :: _ => Ok (Some c) end) /\
  (forall c o' e, o = c :: o' ->
     let (w', out) := perform w t (Leave c e) in
     out = (match e with Some e => Raise e | None => Ok None end) /\
     snd (perform w' t Ask) = (match o' with [] => Raise GenericException | d :: _ => Ok (Some d) end) /\
     forall u, u <> t -> w' u = w u).
Proof.
  intros l t o H C w. assert (E : w t = Some (rev o)) by (unfold w; rewrite own_events; now apply inside_stack). split.
  - unfold perform. rewrite E. destruct o as [|c o]; [reflexivity|]. cbn [rev]. destruct (rev o ++ [c]) eqn:K; [now destruct (rev o)|].
    rewrite <- K, last_last. reflexivity.
  - intros c o' e ->. pose proof (perform_other w t) as HO. destruct (perform w t (Leave c e)) as [w' out] eqn:P.
    unfold perform in P. rewrite E in P. cbn [rev] in P. rewrite list_remove_last in P.
    2: { intros K. apply in_rev in K. apply inside_nodup in H. apply NoDup_cons_iff in H. tauto. }
    injection P as <- <-. split; [reflexivity|]. split.
    + unfold perform, put_stack. rewrite Nat.eqb_refl. destruct o' as [|d o']; [reflexivity|]. cbn [rev].
      destruct (rev o' ++ [d]) eqn:K; [now destruct (rev o')|]. now rewrite <- K, last_last.
    + intros u Hu. unfold put_stack. apply Nat.eqb_neq in Hu. now rewrite Hu.
Qed.
Print Assumptions C44_innermost_partial.

(** A thread that has not constructed a context itself cannot enter one, nor ask. *)
Theorem C44_other_thread_refuted : forall l t c,
  never_creates (own t l) ->
  let w := perform_all no_stacks l in
  perform w t (Enter c) = (w, Raise AttributeError) /\ perform w t Ask = (w, Raise AttributeError).
Proof.
  intros l t c H w. assert (E : w t = None).
  { unfold w. rewrite own_events. induction (own t l) as [|ev evs IH] using rev_ind; [reflexivity|].
    rewrite own_stack_snoc. assert (Hn : never_creates evs /\ ev <> New).
    { clear IH. induction evs as [|e evs IH]; cbn in *; [destruct ev; split; try easy; discriminate|]. destruct e; tauto. }
    rewrite (IH (proj1 Hn)). destruct ev; try reflexivity. now destruct Hn. }
  unfold perform. rewrite E. split; reflexivity.
Qed.
Print Assumptions C44_other_thread_refuted.

(** Two threads, interleaved. *)
Example C44_nonvacuous :
  let l := [(1, New); (2, New); (1, Enter 10); (2, Enter 20); (1, Enter 11); (2, Leave 20 (Some ValueError)); (1, Leave 11 None)] in
  inside (own 1 l) [10] /\ creates_first (own 1 l) /\ inside (own 2 l) [] /\ creates_first (own 2 l) /\
  never_creates (own 3 l).
Proof.
  cbn. split; [|split; [exact I|split; [|split; exact I]]].
  - apply (in_leave [New; Enter 10; Enter 11] [10] 11 None), (in_enter [New; Enter 10] [10] 11).
    + apply (in_enter [New] [] 10); [apply (in_new []), in_start|cbn; tauto].
    + cbn. intros [K|[]]. discriminate.
  - apply (in_leave [New; Enter 20] [] 20 (Some ValueError)), (in_enter [New] [] 20); [apply (in_new []), in_start|cbn; tauto].
Qed.

(** * C45 *)

(** Entering the outermost context again and leaving it puts that context on top, instead of the one in between: for
    all contexts nested in between. *)
Theorem C45_reenter_refuted : forall t c ds w, w t = None -> NoDup (c :: ds) -> ds <> [] ->
  let evs := New :: Enter c :: map Enter ds ++ [Enter c; Leave c None] in
  inside_any evs (rev (c :: ds)) /\
  let w' := perform_all w (map (pair t) evs) in
  w' t = Some (ds ++ [c]) /\ snd (perform w' t Ask) = Ok (Some c) /\ last ds c <> c.
Proof.
  intros t c ds w Hw Hn Hd evs. split.
  - assert (G : inside_any (New :: Enter c :: map Enter ds) (rev (c :: ds))).
    { clear. induction ds as [|d ds IH] using rev_ind.
      - apply (ia_enter [New] [] c), (ia_new [] []), ia_start.
      - rewrite map_app. cbn [map]. change (inside_any ((New :: Enter c :: map Enter ds) ++ [Enter d]) (rev ((c :: ds) ++ [d]))).
        rewrite rev_app_distr. apply (ia_enter (New :: Enter c :: map Enter ds) (rev (c :: ds)) d). exact IH. }
    unfold evs. change (New :: Enter c :: map Enter ds ++ [Enter c; Leave c None]) with ((New :: Enter c :: map Enter ds) ++ ([Enter c] ++ [Leave c None])).
    rewrite app_assoc. apply ia_leave, ia_enter, G.
  - cbv zeta. assert (E : forall l w s, w t = Some s -> perform_all w (map (pair t) (map Enter l)) t = Some (s ++ l)).
    { clear. induction l as [|d l IH]; intros w s H; cbn [map perform_all fold_left fst snd].
      - now rewrite app_nil_r.
      - change (fold_left ?f ?l ?w) with (perform_all w l). rewrite (IH _ (s ++ [d])); [now rewrite <- app_assoc|].
        unfold perform. rewrite H. cbn [fst]. unfold put_stack. now rewrite Nat.eqb_refl. }
    assert (W : perform_all w (map (pair t) evs) t = Some (ds ++ [c])).
    { unfold evs. change (New :: Enter c :: map Enter ds ++ [Enter c; Leave c None]) with ([New] ++ map Enter (c :: ds) ++ [Enter c; Leave c None]).
      rewrite !map_app, !perform_all_app. set (w1 := perform_all w (map (pair t) [New])).
      assert (H1 : w1 t = Some []).
      { unfold w1. cbn. rewrite Hw. cbn. unfold put_stack. now rewrite Nat.eqb_refl. }
      set (w2 := perform_all w1 (map (pair t) (map Enter (c :: ds)))).
      assert (H2 : w2 t = Some (c :: ds)) by (unfold w2; now rewrite (E _ _ _ H1)).
      cbn [map perform_all fold_left fst snd]. unfold perform at 2. rewrite H2. cbn [fst].
      unfold perform. unfold put_stack at 1. rewrite Nat.eqb_refl. cbn [app list_remove]. rewrite Nat.eqb_refl. cbn [fst].
      unfold put_stack. now rewrite Nat.eqb_refl. }
    split; [exact W|]. split.
    + unfold perform. rewrite W. destruct (ds ++ [c]) eqn:K; [now destruct ds|]. cbn [snd]. now rewrite <- K, last_last.
    + apply NoDup_cons_iff in Hn. destruct Hn as [Hn _]. intros K. apply Hn. rewrite <- K at 1.
      destruct (exists_last Hd) as (l' & a & ->). rewrite last_last in *. apply in_or_app. right. now left.
Qed.
Print Assumptions C45_reenter_refuted.

(** Entering again the context on top is harmless. *)
Theorem C45_reenter_top_partial : forall w t s c e, w t = Some (s ++ [c]) -> ~ In c s ->
  let w' := fst (perform (fst (perform w t (Enter c))) t (Leave c e)) in
  w' t = Some (s ++ [c]) /\ snd (perform w' t Ask) = Ok (Some c).
Proof.
  intros w t s c e H Hc w'.
  assert (R : list_remove c ((s ++ [c]) ++ [c]) = Some (s ++ [c])).
  { clear -Hc. rewrite <- app_assoc. induction s as [|d s IH]; cbn; [now rewrite Nat.eqb_refl|].
    destruct (Nat.eqb_spec d c); [exfalso; apply Hc; now left|]. cbn in IH. rewrite IH; [reflexivity|]. intros K. apply Hc. now right. }
  assert (W : w' t = Some (s ++ [c])).
  { unfold w'. unfold perform at 2. rewrite H. cbn [fst]. unfold perform. unfold put_stack at 1. rewrite Nat.eqb_refl, R. cbn [fst].
    unfold put_stack. now rewrite Nat.eqb_refl. }
  split; [exact W|]. unfold perform. rewrite W. destruct (s ++ [c]) eqn:K; [now destruct s|]. now rewrite <- K, last_last.
Qed.
Print Assumptions C45_reenter_top_partial.

Example C45_nonvacuous : NoDup [1; 2] /\ ~ In 1 (@nil nat) /\
  snd (perform (perform_all no_stacks (map (pair 0) [New; Enter 1; Enter 2; Enter 1; Leave 1 None])) 0 Ask) = Ok (Some 1).
Proof. split; [repeat constructor; cbn; lia|]. split; [tauto|reflexivity]. Qed.
