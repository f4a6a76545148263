From Coq Require Import Reals List Bool Arith Lia Lra.
From Verif.Model Require Import Base Xf Weights Pmmh Sequential.
From Verif.Spec Require Import PmmhSpec SequentialSpec.
From Verif.Proofs Require Import WeightsProofs.
From Verif.Props Require Import WeightsProps PmmhProps.
Import ListNotations.
Local Open Scope nat_scope.

(** ** Weights *)
Lemma normalize_ok lowest w : w <> [] -> exists p, normalize lowest w = Ok (p, map (nan_to_num lowest) w) /\ List.length p = List.length w.
Proof.
  intros H. destruct w as [|x w]; [now contradiction H|]. unfold normalize. eexists. split; [reflexivity|].
  set (n := shifted_softmax _).
  assert (L : List.length n = S (List.length w)) by (unfold n, shifted_softmax, softmax; cbn [List.map List.length]; rewrite ?map_length; reflexivity).
  destruct (xeq _ _); rewrite ?map_length; exact L.
Qed.
Lemma get_ess_ok lowest w : w <> [] -> exists e, get_ess lowest w false = Ok (e, map (nan_to_num lowest) w).
Proof. intros H. destruct (normalize_ok lowest w H) as (p & Ep & _). unfold get_ess. rewrite Ep. cbn. eexists. reflexivity. Qed.
Lemma len_nonnil {A} (l : list A) n : List.length l = n -> 0 < n -> l <> [].
Proof. intros L H ->. cbn in L. lia. Qed.

Lemma get_ess_range lowest w e arg : w <> [] -> get_ess lowest w false = Ok (e, arg) -> ess_entry e.
Proof.
  intros N H. destruct (usable_dec_list lowest w) as [U|D].
  - destruct (C08_ess_bounds_log lowest w U) as (r & a & Er & R1 & _). rewrite Er in H. injection H as <- _. right. exists r. auto.
  - left. unfold get_ess in H. rewrite (normalize_dead lowest w N D) in H. cbn [bind] in H. injection H as <- _.
    destruct w as [|x w]; [now contradiction N|]. reflexivity.
Qed.

(** ** Gathering *)
Lemma gather_ok {A} (l : list A) idx : Forall (fun i => i < List.length l) idx -> exists r, gather l idx = Ok r /\ List.length r = List.length idx /\
  forall b i, nth_error idx b = Some i -> nth_error r b = nth_error l i.
Proof.
  induction 1 as [|i idx Hi _ IH]; cbn.
  - exists []. repeat split. intros b i Eb. destruct b; discriminate.
  - destruct (nth_some l i Hi) as [x Ex]. rewrite Ex. destruct IH as (r & Er & Lr & Nr). rewrite Er. cbn. exists (x :: r). cbn. split; [reflexivity|]. split; [now rewrite Lr|].
    intros [|b] j Ej; cbn in *; [injection Ej as <-; now rewrite Ex|now apply Nr].
Qed.

(** ** Combining lists *)
Lemma combine_len {A B} (a : list A) (b : list B) n : List.length a = n -> List.length b = n -> List.length (combine a b) = n.
Proof. intros. rewrite combine_length. lia. Qed.
Lemma combine_seq_nth {A} (l : list A) b x : nth_error l b = Some x -> nth_error (combine (seq 0 (List.length l)) l) b = Some (b, x).
Proof.
  intros E. apply combine_nth_error; [|exact E]. assert (b < List.length l) by (apply nth_error_Some; rewrite E; discriminate).
  rewrite (nth_error_nth' _ 0) by now rewrite seq_length. now rewrite seq_nth.
Qed.

Section Frame.
  Context {T F Y K : Type} (E : env T F Y K) (OK : env_ok E).
  Notation B := (e_B E).

  Lemma Bpos : 0 < B. Proof. exact (proj1 OK). Qed.

  (** ** The filter *)
  Lemma init_len rnd np built now : List.length built = B -> List.length now = B -> List.length (init_result E rnd np built now) = B.
  Proof. intros L1 L2. unfold init_result. rewrite map_length. apply combine_len; [now rewrite seq_length|]. now apply combine_len. Qed.
  Lemma corrections_len rnd np built now y fs : List.length built = B -> List.length now = B -> List.length fs = B ->
    List.length (corrections E rnd np built now y fs) = B.
  Proof. intros L1 L2 L3. unfold corrections. rewrite map_length. apply combine_len; [now rewrite seq_length|]. apply combine_len; [now apply combine_len|exact L3]. Qed.
  Lemma append_len (fs new : list (F * xf)) : List.length fs = B -> List.length new = B -> List.length (append_result fs new) = B.
  Proof. intros. now apply zip_len. Qed.
  Lemma filter_on_len data : forall rnd np built now fs, List.length built = B -> List.length now = B -> List.length fs = B ->
    List.length (filter_on E rnd np built now data fs) = B.
  Proof. induction data as [|y r IH]; intros; cbn [filter_on]; [assumption|]. apply IH; auto. apply append_len; auto. now apply corrections_len. Qed.
  Lemma batch_len rnd np built now data : List.length built = B -> List.length now = B -> List.length (batch_filter E rnd np built now data) = B.
  Proof. intros. unfold batch_filter. apply filter_on_len; auto. now apply init_len. Qed.

  (** One slot. *)
  Lemma init_nth rnd np built now b t t' : List.length built = List.length now -> nth_error built b = Some t -> nth_error now b = Some t' ->
    nth_error (init_result E rnd np built now) b = Some (e_init E rnd np b t t', Fin 0).
  Proof.
    intros L E1 E2. unfold init_result. rewrite nth_error_map. assert (L' : List.length now = List.length (combine built now)) by (rewrite combine_length; lia).
    rewrite L', (combine_seq_nth _ b (t, t')); [reflexivity|]. now apply combine_nth_error.
  Qed.
  Lemma corrections_nth rnd np built now y fs b t t' f : List.length built = List.length fs -> List.length now = List.length fs ->
    nth_error built b = Some t -> nth_error now b = Some t' -> nth_error fs b = Some f ->
    nth_error (corrections E rnd np built now y fs) b = Some (e_step E rnd np b t t' y (fst f)).
  Proof.
    intros L1 L2 E1 E2 E3. unfold corrections. rewrite nth_error_map. assert (L' : List.length fs = List.length (combine (combine built now) fs)) by (rewrite !combine_length; lia).
    rewrite L' at 1. rewrite (combine_seq_nth _ b (t, t', f)); [reflexivity|]. apply combine_nth_error; [|exact E3]. now apply combine_nth_error.
  Qed.

  Definition world_ok (g : @world T) : Prop := List.length (g_ctx g) = B /\ List.length (g_model g) = B.
  Definition state_ok (s : @sstate F Y) : Prop := List.length (s_w s) = B /\ List.length (s_fs s) = B.

  Lemma absorb_ok g y s : world_ok g -> state_ok s ->
    let c := corrections E (g_rnd g) (g_np g) (g_model g) (g_ctx g) y (s_fs s) in
    List.length c = B /\
    exists e, absorb E g y s = (tick 1 g, Ok (St (map (nan_to_num (e_lowest E)) (zip_with xadd (s_w s) (map snd c))) (append_result (s_fs s) c) (s_ess s ++ [e]) (s_data s) (s_iter s))) /\
      get_ess (e_lowest E) (zip_with xadd (s_w s) (map snd c)) false = Ok (e, map (nan_to_num (e_lowest E)) (zip_with xadd (s_w s) (map snd c))) /\ ess_entry e.
  Proof.
    intros [G1 G2] [S1 S2] c. assert (Lc : List.length c = B) by now apply corrections_len. split; [exact Lc|].
    assert (Nn : zip_with xadd (s_w s) (map snd c) <> []) by (apply (len_nonnil _ B); [|apply Bpos]; apply zip_len; [exact S1|now rewrite map_length]).
    destruct (get_ess_ok (e_lowest E) _ Nn) as [e Ee].
    exists e. split; [|split; [exact Ee|exact (get_ess_range _ _ _ _ Nn Ee)]]. unfold absorb. fold c. rewrite Ee. reflexivity.
  Qed.

  Lemma absorb_state_ok s e c : List.length c = B -> state_ok s ->
    state_ok (St (map (nan_to_num (e_lowest E)) (zip_with xadd (s_w s) (map snd c))) (append_result (s_fs s) c) (s_ess s ++ [e]) (s_data s) (s_iter s)) .
  Proof. intros Lc [S1 S2]. split; cbn [s_w s_fs]; [rewrite map_length; apply zip_len; [exact S1|now rewrite map_length]|now apply append_len]. Qed.

  Lemma online_ok (d : bool) g s : world_ok g -> state_ok s -> exists p rows fs ctx,
    normalize (e_lowest E) (s_w s) = Ok (p, map (nan_to_num (e_lowest E)) (s_w s)) /\
    let idx := e_resample E (g_rnd g) p in
    gather (g_ctx g) idx = Ok rows /\ gather (s_fs s) idx = Ok fs /\ List.length idx = B /\ Forall (fun i => i < B) idx /\
    ctx = (if d then where_ (e_coins E (g_rnd g + 2)) (e_jitter E (g_rnd g + 1) (g_ctx g) p idx) rows else e_jitter E (g_rnd g + 1) (g_ctx g) p idx) /\
    List.length rows = B /\ List.length fs = B /\ List.length ctx = B /\
    online_update E d g s = (World ctx ctx (g_np g) (g_rnd g + 3) (S (g_updates g)), Ok (St (zeros (s_w s)) fs (s_ess s) (s_data s) (s_iter s))).
  Proof.
    intros [G1 G2] [S1 S2]. destruct OK as (_ & Res & Jit & Co & _). destruct (normalize_ok (e_lowest E) (s_w s)) as (p & Ep & Lp).
    { apply (len_nonnil _ B); [exact S1|apply Bpos]. }
    rewrite S1 in Lp. destruct (Res (g_rnd g) p Lp) as [R1 R2].
    destruct (gather_ok (g_ctx g) (e_resample E (g_rnd g) p)) as (rows & Er & Lr & _); [now rewrite G1|].
    destruct (gather_ok (s_fs s) (e_resample E (g_rnd g) p)) as (fs & Ef & Lf & _); [now rewrite S2|].
    exists p, rows, fs. eexists. split; [exact Ep|]. split; [exact Er|]. split; [exact Ef|]. split; [exact R1|]. split; [exact R2|]. split; [reflexivity|].
    split; [lia|]. split; [lia|]. split.
    - destruct d; [|now apply Jit]. apply where_len; [apply Co|now apply Jit|lia].
    - unfold online_update. rewrite Ep. cbn [count_update g_rnd g_ctx g_np g_updates]. rewrite Er, Ef. reflexivity.
  Qed.

  (** ** The PMMH loop *)
  Notation chain := (@chains T (F * xf) K).
  Definition pstep (np : nat) (data : list Y) (rnd : nat) (k : K) (ctx : list T) (fs : list (F * xf)) : chain * list bool :=
    run_pmmh snd (e_log_prior E) (e_build E) (e_log_prob E) (e_exchange E) (e_sample E rnd k) (fun rows => batch_filter E (rnd + 1) np rows rows data)
      (map (fun _ => Fin 0) fs) (e_uniforms E (rnd + 2 + List.length data)) false (Chains ctx fs k).
  Lemma pstep_ok np data rnd k ctx fs : List.length ctx = B -> List.length fs = B ->
    let (ch, acc) := pstep np data rnd k ctx fs in List.length acc = B /\ List.length (positions ch) = B /\ List.length (results ch) = B /\
      positions ch = where_ acc (e_sample E rnd k) ctx /\
      results ch = where_ acc (batch_filter E (rnd + 1) np (e_sample E rnd k) (e_sample E rnd k) data) fs.
  Proof.
    intros L1 L2. destruct OK as (_ & _ & _ & _ & Sa & LP & Un). destruct (pstep np data rnd k ctx fs) as [ch acc] eqn:P.
    assert (La : List.length acc = B).
    { change acc with (snd (ch, acc)). rewrite <- P. unfold pstep. apply accepted_len; auto; [split; assumption|]. now apply batch_len. }
    unfold pstep, run_pmmh in P. injection P as <- <-. cbn [positions results]. cbn [positions results kern] in La. split; [exact La|].
    split; [apply where_len; auto|]. split; [apply where_len; auto; now apply batch_len|]. split; reflexivity.
  Qed.
  Lemma moves_unfold c np (data : list Y) (k : K) (old : list T) m i rnd prev rate (ctx : list T) (fs : list (F * xf)) : pmmh_moves E c np data k old (S m) i rnd prev rate ctx fs =
    let (ch, acc) := pstep np data rnd k ctx fs in
    let rnd' := rnd + 3 + List.length data in
    let rate' := ((accepted_fraction acc + INR i * rate) / INR (S i))%R in
    if Rlt_dec rate' (c_accept c) then (positions ch, results ch, rnd', [acc], true)
    else let go prev' := let '(ctx', fs', r', accs, low) := pmmh_moves E c np data k old m (S i) rnd' prev' rate' (positions ch) (results ch) in (ctx', fs', r', acc :: accs, low) in
      match c_dist c with
      | None => go prev
      | Some th => let d := e_distance E (positions ch) old in
                   if Rle_dec (Rabs (d - prev)) (th * prev) then (positions ch, results ch, rnd', [acc], false) else go d
      end.
  Proof. reflexivity. Qed.

  (** What holds of the slots before the loop and of every candidate holds of the slots after it. *)
  Lemma moves_ind c np (data : list Y) (k : K) (old : list T) (P : list T -> list (F * xf) -> Prop) :
    (forall rnd ctx fs acc, List.length ctx = B -> List.length fs = B -> List.length acc = B -> P ctx fs ->
       P (where_ acc (e_sample E rnd k) ctx) (where_ acc (batch_filter E (rnd + 1) np (e_sample E rnd k) (e_sample E rnd k) data) fs)) ->
    forall n i rnd prev rate ctx fs, List.length ctx = B -> List.length fs = B -> P ctx fs ->
    let '(ctx', fs', _, accs, _) := pmmh_moves E c np data k old n i rnd prev rate ctx fs in
    List.length ctx' = B /\ List.length fs' = B /\ P ctx' fs' /\ Forall (fun a => List.length a = B) accs /\ List.length accs <= n.
  Proof.
    intros HP. induction n as [|n IH]; intros i rnd prev rate ctx fs L1 L2 P0.
    { cbn. repeat split; auto. }
    rewrite moves_unfold. pose proof (pstep_ok np data rnd k ctx fs L1 L2) as Hs. destruct (pstep np data rnd k ctx fs) as [ch acc].
    destruct Hs as (La & Lp & Lr & Ep & Er). assert (P1 : P (positions ch) (results ch)) by (rewrite Ep, Er; now apply HP).
    cbv zeta. destruct (Rlt_dec _ _).
    { repeat split; auto. cbn. lia. }
    assert (G : forall prev', let '(ctx', fs', _, accs, _) :=
        (let '(ctx', fs', r', accs, low) := pmmh_moves E c np data k old n (S i) (rnd + 3 + List.length data) prev' ((accepted_fraction acc + INR i * rate) / INR (S i)) (positions ch) (results ch) in
         (ctx', fs', r', acc :: accs, low)) in
      List.length ctx' = B /\ List.length fs' = B /\ P ctx' fs' /\ Forall (fun a => List.length a = B) accs /\ List.length accs <= S n).
    { intros prev'. specialize (IH (S i) (rnd + 3 + List.length data) prev' ((accepted_fraction acc + INR i * rate) / INR (S i))%R (positions ch) (results ch) Lp Lr P1).
      destruct (pmmh_moves E c np data k old n (S i) _ _ _ _ _) as [[[[ctx' fs'] r'] accs] low]. destruct IH as (A1 & A2 & A3 & A4 & A5). repeat split; auto. cbn. lia. }
    destruct (c_dist c); [|apply G]. destruct (Rle_dec _ _); [repeat split; auto; cbn; lia|apply G].
  Qed.

  Lemma zip_map_snd_len (fs : list (F * xf)) (gs : list (F * xf)) : List.length fs = B -> List.length gs = B -> List.length (zip_with xsub (map snd fs) (map snd gs)) = B.
  Proof. intros. apply zip_len; now rewrite map_length. Qed.

  Lemma increase_ok c n g data s : world_ok g -> state_ok s ->
    (c_max c <= n -> increase_states E c n g data s = (S n, g, Raise TooManyIncreases)) /\
    (n < c_max c -> let fs := batch_filter E (g_rnd g) (g_np g * 2) (g_ctx g) (g_ctx g) data in
       let w := zip_with xsub (map snd fs) (map snd (s_fs s)) in
       List.length fs = B /\ List.length w = B /\
       increase_states E c n g data s = (S n, World (g_ctx g) (g_ctx g) (g_np g * 2) (g_rnd g + S (List.length data)) (g_updates g),
         Ok (Fresh s (St (map (nan_to_num (e_lowest E)) w) fs (s_ess s) (s_data s) (s_iter s))))).
  Proof.
    intros [G1 G2] [S1 S2]. split; intros H; unfold increase_states.
    - replace (c_max c <? S n) with true by (symmetry; apply Nat.ltb_lt; lia). reflexivity.
    - replace (c_max c <? S n) with false by (symmetry; apply Nat.ltb_ge; lia). set (fs := batch_filter _ _ _ _ _ _). cbv zeta.
      assert (Lf : List.length fs = B) by now apply batch_len. split; [exact Lf|]. set (w := zip_with _ _ _). assert (Lw : List.length w = B) by now apply zip_map_snd_len. split; [exact Lw|].
      unfold new_state. destruct (get_ess_ok (e_lowest E) w) as [e Ee]; [apply (len_nonnil _ B); [exact Lw|apply Bpos]|]. rewrite Ee. reflexivity.
  Qed.

  (** One call of ParticleMetropolisHastings.update. *)
  Lemma pmmh_ok c n g s data : world_ok g -> state_ok s -> s_data s = Some data -> exists p idx rows fs,
    normalize (e_lowest E) (s_w s) = Ok (p, map (nan_to_num (e_lowest E)) (s_w s)) /\ idx = e_resample E (g_rnd g) p /\
    List.length idx = B /\ Forall (fun i => i < B) idx /\ gather (g_ctx g) idx = Ok rows /\ gather (s_fs s) idx = Ok fs /\ List.length rows = B /\ List.length fs = B /\
    let '(ctx, fs', rnd, accs, low) := pmmh_moves E c (g_np g) data (e_build E (g_ctx g) (map (nan_to_num (e_lowest E)) (s_w s)) (s_fs s)) rows (c_steps c) 0 (g_rnd g + 2) 0 0 rows fs in
    List.length ctx = B /\ List.length fs' = B /\
    let s' := St (map (nan_to_num (e_lowest E)) (s_w s)) fs' (s_ess s) (s_data s) (s_iter s) in
    pmmh_update E c n g s =
      if low then increase_states E c n (World ctx (g_model g) (g_np g) rnd (S (g_updates g))) data s'
      else (n, World ctx ctx (g_np g) rnd (S (g_updates g)), Ok (Same (St (zeros (s_w s)) fs' (s_ess s) (s_data s) (s_iter s)))).
  Proof.
    intros [G1 G2] [S1 S2] Sd. destruct OK as (_ & Res & _). destruct (normalize_ok (e_lowest E) (s_w s)) as (p & Ep & Lp).
    { apply (len_nonnil _ B); [exact S1|apply Bpos]. }
    rewrite S1 in Lp. destruct (Res (g_rnd g) p Lp) as [R1 R2].
    destruct (gather_ok (g_ctx g) (e_resample E (g_rnd g) p)) as (rows & Er & Lr & _); [now rewrite G1|].
    destruct (gather_ok (s_fs s) (e_resample E (g_rnd g) p)) as (fs & Ef & Lf & _); [now rewrite S2|].
    exists p, (e_resample E (g_rnd g) p), rows, fs. assert (Lr' : List.length rows = B) by lia. assert (Lf' : List.length fs = B) by lia.
    split; [exact Ep|]. split; [reflexivity|]. split; [exact R1|]. split; [exact R2|]. split; [exact Er|]. split; [exact Ef|]. split; [exact Lr'|]. split; [exact Lf'|].
    unfold pmmh_update. rewrite Sd, Ep. cbn [count_update g_rnd g_ctx g_np g_model g_updates]. rewrite Er, Ef.
    pose proof (moves_ind c (g_np g) data (e_build E (g_ctx g) (map (nan_to_num (e_lowest E)) (s_w s)) (s_fs s)) rows (fun _ _ => True) ltac:(auto) (c_steps c) 0 (g_rnd g + 2) 0%R 0%R rows fs Lr' Lf' I) as M.
    destruct (pmmh_moves _ _ _ _ _ _ _ _ _ _ _ _ _) as [[[[ctx fs'] rnd] accs] low]. destruct M as (M1 & M2 & _). split; [exact M1|]. split; [exact M2|].
    unfold with_w, with_fs. cbn [s_fs s_ess s_data s_iter s_w]. rewrite ?Sd. destruct low; [reflexivity|]. unfold zeros. rewrite map_map. reflexivity.
  Qed.
End Frame.
