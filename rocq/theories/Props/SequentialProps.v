From Coq Require Import Reals List Bool Arith Lia Lra.
From Verif.Model Require Import Base Xf Weights Pmmh Sequential.
From Verif.Spec Require Import PmmhSpec SequentialSpec.
From Verif.Proofs Require Import WeightsProofs SequentialProofs SequentialToy.
From Verif.Props Require Import PmmhProps.
Import ListNotations.
Local Open Scope nat_scope.

Lemma map_rep {A B} (f : A -> B) x n : map f (repeat x n) = repeat (f x) n.
Proof. induction n; cbn; congruence. Qed.

Section Book.
  Context {T F Y K : Type} (E : env T F Y K) (OK : env_ok E).
  Notation B := (e_B E).
  Notation sstate := (@sstate F Y).

  (** What every state a step hands on has in common with the state before. *)
  Definition follows (b : base) (y : Y) (s t : sstate) : Prop :=
    state_ok E t /\ s_iter t = s_iter s /\ (exists e, s_ess t = s_ess s ++ [e] /\ ess_entry e) /\
    s_data t = match b with SMC2 _ => option_map (fun d => d ++ [y]) (s_data s) | _ => s_data s end.
  Definition grew (b : base) (i i' : inst) (np np' : nat) : Prop :=
    match b with SMC2 c => i_increases i' = S (i_increases i) /\ i_increases i' <= c_max c /\ np' = np * 2 | _ => False end.

  Lemma base_step_frame b i g y s : world_ok E g -> state_ok E s ->
    let '(i', g', r) := base_step E b i g y s in
    match r with
    | Ok x => world_ok E g' /\ follows b y s (result_of x) /\ follows b y s (seen_by_callbacks x) /\ (g_model g = g_ctx g -> g_model g' = g_ctx g') /\
        match x with Same _ => i_increases i' = i_increases i /\ g_np g' = g_np g | Fresh _ _ => grew b i i' (g_np g) (g_np g') end
    | Raise e => exists c, b = SMC2 c /\ ((s_data s = None /\ e = AttributeError) \/ (s_data s <> None /\ e = TooManyIncreases /\ c_max c <= i_increases i))
    end.
  Proof.
    intros WG WS.
    assert (Online : match b with SMC2 _ => False | _ => True end -> let '(i', g', r) := base_step E b i g y s in
      match r with
      | Ok x => world_ok E g' /\ follows b y s (result_of x) /\ follows b y s (seen_by_callbacks x) /\ (g_model g = g_ctx g -> g_model g' = g_ctx g') /\
          match x with Same _ => i_increases i' = i_increases i /\ g_np g' = g_np g | Fresh _ _ => grew b i i' (g_np g) (g_np g') end
      | Raise e => exists c, b = SMC2 c /\ ((s_data s = None /\ e = AttributeError) \/ (s_data s <> None /\ e = TooManyIncreases /\ c_max c <= i_increases i))
      end).
    { intros NS.
      assert (Eq : base_step E b i g y s =
        let (i', update) := do_update_particles E b i s in
        let (g1, r) := if update then online_update E (discrete_of b) g s else (g, Ok s) in
        match r with Raise e => (i', g1, Raise e) | Ok s1 => let (g2, r2) := absorb E g1 y s1 in (i', g2, let! s2 := r2 in Ok (Same s2)) end) by (destruct b; [reflexivity|reflexivity|contradiction]).
      rewrite Eq. clear Eq. destruct (do_update_particles E b i s) as [i' update] eqn:Du.
      assert (Di : i_increases i' = i_increases i) by (destruct b; cbn in Du; injection Du as <- _; reflexivity).
      assert (Mid : exists g1 s1, (if update then online_update E (discrete_of b) g s else (g, Ok s)) = (g1, Ok s1) /\ world_ok E g1 /\ state_ok E s1 /\ s_iter s1 = s_iter s /\
        s_ess s1 = s_ess s /\ s_data s1 = s_data s /\ (g_model g = g_ctx g -> g_model g1 = g_ctx g1) /\ g_np g1 = g_np g).
      { destruct update.
        - destruct (online_ok E OK (discrete_of b) g s WG WS) as (p & rows & fs & ctx & _ & _ & _ & _ & _ & _ & _ & Lf & Lc & Eo). rewrite Eo. do 2 eexists. split; [reflexivity|].
          cbn [g_model g_ctx g_np s_iter s_ess s_data]. repeat split; auto; cbn; auto. unfold zeros. rewrite map_length. apply WS.
        - exists g, s. repeat split; auto; apply WG || apply WS. }
      destruct Mid as (g1 & s1 & -> & W1 & S1 & I1 & Es1 & D1 & M1 & N1). destruct (absorb_ok E OK g1 y s1 W1 S1) as (Lc & e & Ea & _ & Ey). rewrite Ea. cbn [bind].
      set (s2 := St _ _ _ _ _). assert (Fo : follows b y s s2).
      { split; [apply (absorb_state_ok E s1 e _ Lc S1)|]. split; [exact I1|]. split; [exists e; cbn; rewrite Es1; split; [reflexivity|exact Ey]|]. cbn. rewrite D1. destruct b; [reflexivity|reflexivity|contradiction]. }
      split; [exact W1|]. split; [exact Fo|]. split; [exact Fo|]. split; [exact M1|]. split; [exact Di|exact N1]. }
    destruct b as [thr d|bl d|c]; [exact (Online I)|exact (Online I)|]. clear Online. cbn [base_step].
    destruct (s_data s) as [data|] eqn:Sd; [|exists c; split; [reflexivity|left; split; reflexivity]].
    set (s0 := St (s_w s) (s_fs s) (s_ess s) (Some (data ++ [y])) (s_iter s)). assert (W0 : state_ok E s0) by exact WS.
    destruct (absorb_ok E OK g y s0 WG W0) as (Lc & e & Ea & _ & Ey). rewrite Ea. set (s1 := St (map _ _) _ _ _ _). assert (W1 : state_ok E s1) by apply (absorb_state_ok E s0 e _ Lc W0).
    assert (D1 : s_data s1 = Some (data ++ [y])) by reflexivity. assert (Es1 : s_ess s1 = s_ess s ++ [e]) by reflexivity. assert (I1 : s_iter s1 = s_iter s) by reflexivity.
    assert (Fo : forall t, state_ok E t -> s_iter t = s_iter s1 -> s_ess t = s_ess s1 -> s_data t = s_data s1 -> follows (SMC2 c) y s t).
    { intros t A1 A2 A3 A4. split; [exact A1|]. split; [now rewrite A2|]. split; [exists e; rewrite A3; split; [exact Es1|exact Ey]|]. now rewrite A4, Sd. }
    clearbody s1. destruct (_ || _).
    - set (g1 := tick 1 g). assert (Wg1 : world_ok E g1) by exact WG. assert (Mg1 : g_np g1 = g_np g) by reflexivity. clearbody g1.
      destruct (pmmh_ok E OK c (i_increases i) g1 s1 _ Wg1 W1 D1) as (p & idx & rows & fs & _ & _ & _ & _ & _ & _ & _ & _ & M).
      destruct (pmmh_moves _ _ _ _ _ _ _ _ _ _ _ _ _) as [[[[ctx fs'] rnd] accs] low]. destruct M as (M1 & M2 & M3). rewrite M3. destruct low.
      + set (s' := St _ _ _ _ _). assert (Ws' : state_ok E s') by (split; [cbn; rewrite map_length; apply W1|exact M2]).
        set (gg := World _ _ _ _ _). assert (Wgg : world_ok E gg) by (split; [exact M1|apply Wg1]).
        destruct (increase_ok E OK c (i_increases i) gg (data ++ [y]) s' Wgg Ws') as [I1' I2']. destruct (Nat.lt_ge_cases (i_increases i) (c_max c)) as [Q|Q].
        * destruct (I2' Q) as (Lf & Lw & ->). split; [split; exact M1|]. cbn [result_of seen_by_callbacks].
          split; [apply Fo; try reflexivity; split; [cbn; now rewrite map_length|exact Lf]|]. split; [apply Fo; try reflexivity; exact Ws'|].
          cbn. split; [intros _; reflexivity|]. rewrite Mg1. repeat split; lia.
        * rewrite (I1' Q). exists c. split; [reflexivity|]. right. split; [discriminate|]. split; [reflexivity|exact Q].
      + split; [split; exact M1|]. assert (Ws' : state_ok E (St (zeros (s_w s1)) fs' (s_ess s1) (s_data s1) (s_iter s1))) by (split; [cbn; unfold zeros; rewrite map_length; apply W1|exact M2]).
        split; [now apply Fo|]. split; [now apply Fo|]. split; [reflexivity|]. split; [reflexivity|exact Mg1].
    - split; [exact WG|]. split; [now apply Fo|]. split; [now apply Fo|]. split; [auto|]. split; reflexivity.
  Qed.

  (** Reading the weights changes nothing but the weights. *)
  Lemma read_frame s : state_ok E s -> read_weights E s = with_w (map (nan_to_num (e_lowest E)) (s_w s)) s.
  Proof.
    intros [S1 S2]. unfold read_weights, normalized_weights. destruct (normalize_ok (e_lowest E) (s_w s)) as (p & -> & _); [apply (len_nonnil _ B); [exact S1|apply Bpos; exact OK]|]. reflexivity.
  Qed.
  Lemma callbacks_frame cbs : forall y s, state_ok E s ->
    let (calls, s') := run_callbacks E cbs y s in
    state_ok E s' /\ s_fs s' = s_fs s /\ s_ess s' = s_ess s /\ s_data s' = s_data s /\ s_iter s' = s_iter s /\
    map (fun x => fst x) calls = map (fun c => (cb_id c, y)) cbs /\
    (existsb cb_reads cbs = false -> s' = s /\ calls = map (fun c => (cb_id c, y, s)) cbs).
  Proof.
    induction cbs as [|c cbs IH]; intros y s WS; cbn [run_callbacks]; [repeat split; try apply WS; auto|].
    set (s1 := if cb_reads c then read_weights E s else s).
    assert (H : state_ok E s1 /\ s_fs s1 = s_fs s /\ s_ess s1 = s_ess s /\ s_data s1 = s_data s /\ s_iter s1 = s_iter s /\ (cb_reads c = false -> s1 = s)).
    { unfold s1. destruct (cb_reads c); [|repeat split; try apply WS; auto]. rewrite read_frame by exact WS. cbn. repeat split; auto; [cbn; rewrite map_length; apply WS|apply WS|discriminate]. }
    destruct H as (A1 & A2 & A3 & A4 & A5 & A6). specialize (IH y s1 A1). destruct (run_callbacks E cbs y s1) as [calls s']. destruct IH as (B1 & B2 & B3 & B4 & B5 & B6 & B7).
    repeat split; try congruence; try apply B1.
    - cbn. now rewrite B6.
    - cbn in H. apply orb_false_elim in H as [H1 H2]. destruct (B7 H2) as [-> _]. now apply A6.
    - cbn in H. apply orb_false_elim in H as [H1 H2]. destruct (B7 H2) as [_ ->]. cbn. now rewrite (A6 H1).
  Qed.

  (** The basic algorithm the next observation is given to, and its instance. *)
  Definition active (c : cfg) (a : @alg T) (s : sstate) : base :=
    match c with Plain b => b | Combined b1 b2 switch => if negb (a_switched a) && (s_iter s <=? switch) then b1 else b2 end.
  Definition uses_first (c : cfg) (a : @alg T) (s : sstate) : bool :=
    match c with Plain _ => true | Combined _ _ switch => negb (a_switched a) && (s_iter s <=? switch) end.
  Definition instance (c : cfg) (a : @alg T) (s : sstate) : inst := if uses_first c a s then a_first a else a_second a.

  Lemma step_eq c a y s : step_ E c a y s =
    let '(i, g, r) := base_step E (active c a s) (instance c a s) (a_world a) y s in
    (if uses_first c a s then Alg i (a_second a) (a_switched a) g else Alg (a_first a) i true g, r).
  Proof. destruct c as [b|b1 b2 sw]; unfold step_, instance, uses_first, active; [reflexivity|]. destruct (_ && _); reflexivity. Qed.

  Lemma step_frame c cbs a y s : world_ok E (a_world a) -> state_ok E s ->
    let (a', r) := step E c cbs a y s in
    match r with
    | Ok (s', calls) => world_ok E (a_world a') /\ state_ok E s' /\ s_iter s' = S (s_iter s) /\ (exists e, s_ess s' = s_ess s ++ [e] /\ ess_entry e) /\
        s_data s' = match active c a s with SMC2 _ => option_map (fun d => d ++ [y]) (s_data s) | _ => s_data s end /\
        (g_model (a_world a) = g_ctx (a_world a) -> g_model (a_world a') = g_ctx (a_world a')) /\
        map fst calls = map (fun cb => (cb_id cb, y)) cbs /\ a_switched a' = (if uses_first c a s then a_switched a else true)
    | Raise e => exists c', active c a s = SMC2 c' /\ ((s_data s = None /\ e = AttributeError) \/ (s_data s <> None /\ e = TooManyIncreases))
    end.
  Proof.
    intros WG WS. unfold step. rewrite (step_eq c). pose proof (base_step_frame (active c a s) (instance c a s) (a_world a) y s WG WS) as H.
    destruct (base_step E _ _ _ _ _) as [[i g] r]. destruct r as [x|e].
    - destruct H as (H1 & H2 & H3 & H4 & _). pose proof (callbacks_frame cbs y (seen_by_callbacks x) (proj1 H3)) as C. destruct (run_callbacks E cbs y (seen_by_callbacks x)) as [calls seen].
      destruct C as (C1 & C2 & C3 & C4 & C5 & C6 & _). set (s' := match x with Same _ => seen | Fresh _ n => n end).
      assert (Q : state_ok E s' /\ s_iter s' = s_iter s /\ (exists e, s_ess s' = s_ess s ++ [e] /\ ess_entry e) /\
        s_data s' = match active c a s with SMC2 _ => option_map (fun d => d ++ [y]) (s_data s) | _ => s_data s end).
      { unfold s'. clear s'. destruct x as [s1|old new]; cbn [result_of seen_by_callbacks] in *; [|exact H2]. destruct H2 as (A1 & A2 & A3 & A4). rewrite C3, C4, C5. auto. }
      destruct Q as (Q1 & Q2 & Q3 & Q4). destruct (uses_first c a s); cbn [a_world a_switched bump_iteration s_iter s_ess s_data]; (split; [exact H1|split; [exact Q1|]]); rewrite Q2; auto 10.
    - destruct H as (c' & A & [[H ->]|[H [-> _]]]); exists c'; (split; [exact A|]); [left|right]; split; auto.
  Qed.

  (** The basic algorithm in charge of observation number [n] (from 0). *)
  Definition base_at (c : cfg) (n : nat) : base := match c with Plain b => b | Combined b1 b2 switch => if n <=? switch then b1 else b2 end.
  Definition switch_ok (c : cfg) (a : @alg T) (n : nat) : Prop := match c with Plain _ => True | Combined _ _ switch => a_switched a = true -> switch < n end.
  Lemma active_at c a s : switch_ok c a (s_iter s) -> active c a s = base_at c (s_iter s).
  Proof.
    destruct c as [b|b1 b2 sw]; cbn; [reflexivity|]. intros H. destruct (a_switched a); cbn; [|reflexivity].
    replace (s_iter s <=? sw) with false; [reflexivity|]. symmetry. apply Nat.leb_gt. auto.
  Qed.
  Lemma switch_next c a s a' : switch_ok c a (s_iter s) -> a_switched a' = (if uses_first c a s then a_switched a else true) -> switch_ok c a' (S (s_iter s)).
  Proof.
    destruct c as [b|b1 b2 sw]; cbn; [auto|]. intros H ->. destruct (a_switched a); cbn; intros Q; [specialize (H eq_refl); lia|].
    destruct (Nat.leb_spec (s_iter s) sw); [discriminate|lia].
  Qed.

  (** The observations kept from observation number [n] on. *)
  Fixpoint kept (c : cfg) (n : nat) (ys : list Y) : list Y :=
    match ys with [] => [] | y :: r => match base_at c n with SMC2 _ => y :: kept c (S n) r | _ => kept c (S n) r end end.
  Definition data_ok (c : cfg) (s : sstate) : Prop := compatible c /\ (s_data s = None -> match c with Plain (SMC2 _) | Combined (SMC2 _) _ _ => False | _ => True end).

  Lemma run_frame c cbs : forall ys a s, world_ok E (a_world a) -> state_ok E s -> switch_ok c a (s_iter s) -> data_ok c s ->
    let (a', r) := run E c cbs a ys s in
    match r with
    | Ok (s', calls) => world_ok E (a_world a') /\ state_ok E s' /\ s_iter s' = s_iter s + List.length ys /\ (exists l, s_ess s' = s_ess s ++ l /\ List.length l = List.length ys /\ Forall ess_entry l) /\
        s_data s' = option_map (fun d => d ++ kept c (s_iter s) ys) (s_data s) /\ switch_ok c a' (s_iter s') /\ data_ok c s' /\
        (g_model (a_world a) = g_ctx (a_world a) -> g_model (a_world a') = g_ctx (a_world a')) /\
        map fst calls = flat_map (fun y => map (fun cb => (cb_id cb, y)) cbs) ys
    | Raise e => e = TooManyIncreases
    end.
  Proof.
    induction ys as [|y ys IH]; intros a s WG WS SO DO; cbn [run].
    { repeat split; try apply WG; try apply WS; try apply DO; auto. exists []. rewrite app_nil_r. auto. cbn. destruct (s_data s); cbn; [now rewrite app_nil_r|reflexivity]. }
    pose proof (step_frame c cbs a y s WG WS) as H. destruct (step E c cbs a y s) as [a1 r1]. rewrite (active_at c a s SO) in H.
    assert (None_case : s_data s = None -> match base_at c (s_iter s) with SMC2 _ => False | _ => True end).
    { intros N. destruct DO as [Co Dn]. specialize (Dn N). destruct c as [[| |]|[| |] [| |] sw]; cbn in *; try (destruct (_ <=? _)); auto. }
    destruct r1 as [[s1 calls1]|e].
    - destruct H as (A1 & A2 & A3 & (e & A4 & A4') & A5 & A6 & A7 & A8). assert (SO1 : switch_ok c a1 (s_iter s1)) by (rewrite A3; now apply (switch_next c a s)).
      assert (DO1 : data_ok c s1).
      { split; [apply DO|]. intros N. apply DO. rewrite A5 in N. destruct (base_at c (s_iter s)); [exact N|exact N|]. destruct (s_data s); [discriminate|reflexivity]. }
      specialize (IH a1 s1 A1 A2 SO1 DO1). destruct (run E c cbs a1 ys s1) as [a2 r2]. destruct r2 as [[s2 calls2]|e2]; cbn [bind]; [|exact IH].
      destruct IH as (B1 & B2 & B3 & (l & B4 & B5 & B5') & B6 & B7 & B8 & B9 & B10). split; [exact B1|]. split; [exact B2|]. split; [rewrite B3, A3; cbn; lia|].
      split; [exists (e :: l); rewrite B4, A4, <- app_assoc; cbn; auto 6|]. split.
      + rewrite B6, A5, A3. cbn [kept]. destruct (s_data s) as [d|] eqn:Sd; destruct (base_at c (s_iter s)); cbn; try reflexivity. now rewrite <- app_assoc.
      + split; [exact B7|]. split; [exact B8|]. split; [auto|]. rewrite map_app, A7, B10. reflexivity.
    - destruct H as (c' & H1 & [[H2 _]|[_ H2]]); [|exact H2]. specialize (None_case H2). rewrite H1 in None_case. contradiction.
  Qed.

  Lemma kept_smc2 c ys : (forall n, exists c', base_at c n = SMC2 c') -> forall n, kept c n ys = ys.
  Proof. intros H. induction ys as [|y ys IH]; intros n; cbn; [reflexivity|]. destruct (H n) as [c' ->]. now rewrite IH. Qed.
  Lemma kept_none c ys : (forall n, match base_at c n with SMC2 _ => False | _ => True end) -> forall n, kept c n ys = [].
  Proof. intros H. induction ys as [|y ys IH]; intros n; cbn; [reflexivity|]. specialize (H n). destruct (base_at c n); [apply IH|apply IH|contradiction]. Qed.
  Lemma kept_combined c1 b2 sw ys : match b2 with SMC2 _ => False | _ => True end -> forall n, kept (Combined (SMC2 c1) b2 sw) n ys = firstn (S sw - n) ys.
  Proof.
    intros H. induction ys as [|y ys IH]; intros n; [now rewrite firstn_nil|]. cbn [kept base_at]. destruct (Nat.leb_spec n sw).
    - rewrite IH. replace (S sw - n) with (S (S sw - S n)) by lia. reflexivity.
    - replace (S sw - n) with 0 by lia. rewrite IH. replace (S sw - S n) with 0 by lia. destruct b2; [reflexivity|reflexivity|contradiction].
  Qed.
  Lemma initial_ok c a drawn placed : List.length drawn = B -> List.length placed = B ->
    exists e, initialize_alg E c a drawn placed =
      (Alg (a_first a) (a_second a) (a_switched a) (World placed drawn (g_np (a_world a)) (S (g_rnd (a_world a))) (g_updates (a_world a))),
       Ok (St (repeat (Fin 0) B) (init_result E (g_rnd (a_world a)) (g_np (a_world a)) drawn placed) [e] (if keeps_data c then Some [] else None) 0)).
  Proof.
    intros L1 L2. unfold initialize_alg, new_state. destruct (get_ess_ok (e_lowest E) (repeat (Fin 0) B)) as [e Ee].
    { apply (len_nonnil _ B); [apply repeat_length|apply Bpos; exact OK]. }
    rewrite map_rep in Ee. rewrite Ee. exists e. reflexivity.
  Qed.

  (** C50.  A run never fails except by TooManyIncreases, and its bookkeeping is that of the data. *)
  Theorem C50_bookkeeping : forall c cbs a drawn placed ys, compatible c -> List.length drawn = B -> List.length placed = B -> a_switched a = false ->
    match snd (fit_alg E c cbs a drawn placed ys) with
    | Ok (s, calls) => s_iter s = List.length ys /\ List.length (s_ess s) = S (List.length ys) /\ s_data s = recorded c ys /\
        List.length (s_w s) = B /\ List.length (s_fs s) = B
    | Raise e => e = TooManyIncreases
    end.
  Proof.
    intros c cbs a drawn placed ys Co L1 L2 Sw. unfold fit_alg. destruct (initial_ok c a drawn placed L1 L2) as [e ->].
    set (a0 := Alg _ _ _ _). set (s0 := St _ _ _ _ _). pose proof (run_frame c cbs ys a0 s0) as H.
    assert (W0 : world_ok E (a_world a0)) by (split; assumption). assert (S0 : state_ok E s0) by (split; [apply repeat_length|now apply init_len]).
    assert (O0 : switch_ok c a0 (s_iter s0)) by (destruct c; cbn; [exact I|rewrite Sw; discriminate]).
    assert (D0 : data_ok c s0) by (split; [exact Co|]; destruct c as [[| |]|[| |] ? ?]; cbn; auto; discriminate).
    specialize (H W0 S0 O0 D0). destruct (run E c cbs a0 ys s0) as [a' r]. cbn [snd]. destruct r as [[s calls]|e']; [|exact H].
    destruct H as (A1 & A2 & A3 & (l & A4 & A5 & _) & A6 & _). split; [exact A3|]. split; [rewrite A4; cbn; now rewrite A5|]. split; [|exact A2].
    rewrite A6. cbn [s0 s_data s_iter]. destruct c as [[thr d|bl d|c1]|[thr d|bl d|c1] [thr2 d2|bl2 d2|c2] sw]; cbn [keeps_data option_map recorded app]; try reflexivity.
    - rewrite kept_smc2; [reflexivity|]. intros n. cbn. eauto.
    - rewrite kept_combined by exact I. reflexivity.
    - rewrite kept_combined by exact I. reflexivity.
    - rewrite kept_smc2; [reflexivity|]. intros n. cbn. destruct (_ <=? _); eauto.
  Qed.
End Book.
Print Assumptions C50_bookkeeping.

(** A run with a rejuvenation, an increase of the state particles and a switch. *)
Definition toy_nessmc2 : cfg := Combined (SMC2 smc2_half) (NESS (1 / 2) false) 0.
Example C50_nonvacuous : env_ok (toy false) /\ compatible toy_nessmc2 /\
  exists a s calls, fit_alg (toy false) toy_nessmc2 [] (new_alg 100 0) [0; 1] [0; 1] [counts_np; flat] = (a, Ok (s, calls)) /\ g_np (a_world a) = 200 /\ a_switched a = true.
Proof.
  split; [apply toy_ok|]. split; [exact I|]. unfold fit_alg. destruct (initial_ok (toy false) (toy_ok false) toy_nessmc2 (new_alg 100 0) [0; 1] [0; 1] eq_refl eq_refl) as [e ->].
  cbn [run]. unfold step. cbn [step_ toy_nessmc2 a_switched new_alg negb s_iter Nat.leb andb a_first a_world g_np g_rnd g_updates keeps_data].
  change (repeat (Fin 0) (e_B (toy false))) with [Fin 0; Fin 0]. change (init_result (toy false) 0 100 [0; 1] [0; 1]) with [(0, Fin 0); (0, Fin 0)].
  destruct (toy_increase false 100 1 0 [e]) as (old & new & rnd' & e' & -> & -> & ->). cbn [run_callbacks seen_by_callbacks bump_iteration s_w s_fs s_ess s_data s_iter].
  cbn [step_ a_switched negb s_iter Nat.leb andb a_second a_world base_step discrete_of do_update_particles]. set (upd := _ || _). match goal with |- context [online_update _ _ ?x ?z] => set (g := x); set (s := z) end.
  assert (Mid : exists g1 s1, (if upd then online_update (toy false) false g s else (g, Ok s)) = (g1, Ok s1) /\ world_ok (toy false) g1 /\ state_ok (toy false) s1 /\ g_np g1 = 200).
  { destruct upd; [|exists g, s; repeat split]. destruct (online_ok (toy false) (toy_ok false) false g s) as (p & rows & fs & ctx & _ & _ & _ & _ & _ & _ & _ & Lf & Lc & ->); [split; reflexivity|split; reflexivity|].
    do 2 eexists. split; [reflexivity|]. repeat split; auto. }
  destruct Mid as (g1 & s1 & -> & W1 & S1 & N1). destruct (absorb_ok (toy false) (toy_ok false) g1 flat s1 W1 S1) as (_ & e2 & -> & _). cbn [bind]. do 3 eexists. split; [reflexivity|]. split; [exact N1|reflexivity].
Qed.
