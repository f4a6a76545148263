(** Lemmas for C87. *)
From Coq Require Import Reals List Bool Arith Lia Lra.
From Coquelicot Require Import Coquelicot.
From Verif.Model Require Import Base Xf Pmmh.
From Verif.Spec Require Import WeightsSpec UnbiasedSpec PmmhSpec StationarySpec.
From Verif.Proofs Require Import UnbiasedProofs UnbiasedFilter.
From Verif.Props Require Import PmmhProps.
Import ListNotations.
Local Open Scope nat_scope.

Lemma mass_nonneg x : (0 <= mass x)%R.
Proof. destruct x; cbn; try lra. left. apply exp_pos. Qed.
Lemma posterior_nonneg {T F} lp ll (z : T * F) : (0 <= posterior lp ll z)%R.
Proof. apply Rmult_le_pos; apply mass_nonneg. Qed.

(** * Metropolis *)
Lemma chance_range a b : (0 <= a)%R -> (0 <= b)%R -> (0 <= chance a b <= 1)%R.
Proof.
  intros A B. unfold chance. destruct (Req_EM_T a 0); [lra|]. destruct (Req_EM_T b 0); [lra|]. split; [|apply Rmin_l].
  apply Rmin_glb; [lra|]. apply Rlt_le, Rdiv_lt_0_compat; lra.
Qed.
Lemma chance_flow a b : (0 <= a)%R -> (0 <= b)%R -> (b * chance a b = Rmin b a)%R.
Proof.
  intros A B. unfold chance. destruct (Req_EM_T a 0) as [->|Na]; [rewrite Rmin_right; lra|]. destruct (Req_EM_T b 0) as [->|Nb]; [rewrite Rmin_left; lra|].
  assert (Pb : (0 < b)%R) by lra. unfold Rmin. destruct (Rle_dec 1 (a / b)) as [H|H]; destruct (Rle_dec b a) as [H'|H']; try lra.
  - exfalso. apply H'. apply (Rmult_le_compat_r b) in H; [|lra]. replace (a / b * b)%R with a in H by (field; lra). lra.
  - exfalso. apply H. apply (Rmult_le_reg_r b); [exact Pb|]. replace (a / b * b)%R with a by (field; lra). lra.
  - field. lra.
Qed.

(** A uniform number is below [a] with probability [a]. *)
Lemma uniform_below a p q : (0 <= a <= 1)%R -> averages uniform (fun u => if Rlt_dec u a then p else q) (a * p + (1 - a) * q)%R.
Proof.
  intros [A0 A1]. apply uniform_is.
  replace (a * p + (1 - a) * q)%R with (plus (scal (a - 0) p) (scal (1 - a) q))%R by (unfold plus, scal; cbn; unfold mult; cbn; ring).
  apply (@is_RInt_Chasles R_NormedModule _ 0%R a 1%R).
  - apply (@is_RInt_ext R_NormedModule (fun _ => p)); [|apply (@is_RInt_const R_NormedModule)].
    intros x Hx. rewrite Rmin_left, Rmax_right in Hx by lra. destruct (Rlt_dec x a); [reflexivity|lra].
  - apply (@is_RInt_ext R_NormedModule (fun _ => q)); [|apply (@is_RInt_const R_NormedModule)].
    intros x Hx. rewrite Rmin_left, Rmax_right in Hx by lra. destruct (Rlt_dec x a); [lra|reflexivity].
Qed.
Lemma nth_error_seq_map {A} (u : nat -> A) B b : b < B -> nth_error (map u (seq 0 B)) b = Some (u b).
Proof. intros H. rewrite nth_error_map, (nth_error_nth' _ 0) by now rewrite seq_length. now rewrite seq_nth. Qed.
Lemma half_uniform (k : nat) : supp uniform (/ 2)%R. Proof. cbn. lra. Qed.
Lemma uniforms_law B : law_ok (uniforms B).
Proof. apply image_ok. apply independent_ok; [apply uniform_ok|]. intros k. apply half_uniform. exact 0. Qed.
Lemma uniforms_supp B u : supp (uniforms B) u -> List.length u = B /\ forall b, b < B -> exists v, nth_error u b = Some v /\ (0 < v < 1)%R.
Proof.
  intros (g & Hg & <-). split; [now rewrite map_length, seq_length|]. intros b Hb. exists (g b). split; [now apply nth_error_seq_map|].
  exact (proj1 (supp_independent _ _ _ _) Hg b).
Qed.
Lemma uniforms_below B b a p q : b < B -> (0 <= a <= 1)%R ->
  averages (uniforms B) (fun u => if Rlt_dec (nth b u 0%R) a then p else q) (a * p + (1 - a) * q)%R.
Proof.
  intros Hb Ha. apply averages_image.
  apply (averages_ext _ (independent_ok uniform uniform_ok (fun _ => (/ 2)%R) (fun k => half_uniform k) B) (fun u => if Rlt_dec (u b) a then p else q)).
  - intros u _. rewrite (nth_error_nth _ _ _ (nth_error_seq_map u B b Hb)). reflexivity.
  - apply (independent_one uniform uniform_ok (fun _ => (/ 2)%R) (fun k => half_uniform k) B b (fun v => if Rlt_dec v a then p else q)); [now apply uniform_below|exact Hb].
Qed.

(** * One step of a walking chain *)
(** The log ratio is compared with the uniform number as Metropolis has it. *)
Lemma ratio_chance {T F} (ll : F -> xf) (lp : T -> xf) t t' f f' q v : proper (lp t) -> proper (lp t') -> proper (ll f) -> proper (ll f') -> (0 < v < 1)%R ->
  xlt (xlog (Fin v)) (log_ratio ll lp t' t f' f (Fin q) (Fin q)) = if Rlt_dec v (chance (posterior lp ll (t', f')) (posterior lp ll (t, f))) then true else false.
Proof.
  intros P1 P2 P3 P4 V. assert (V' : (0 <= v < 1)%R) by lra. destruct (xlog_below_one v V') as (X1 & X2 & X3).
  unfold log_ratio, posterior. cbn [fst snd].
  destruct (lp t') as [a'| | |] eqn:E1; try contradiction; destruct (ll f') as [b'| | |] eqn:E2; try contradiction;
    destruct (lp t) as [a| | |] eqn:E3; try contradiction; destruct (ll f) as [b| | |] eqn:E4; try contradiction; cbn [xsub xopp xadd mass].
  1: { rewrite <- !exp_plus. pose proof (xlog_lt v (q + - q + (a' + - a) + (b' + - b)) V') as Q.
    unfold chance. destruct (Req_EM_T (exp (a' + b')) 0) as [e|_]; [pose proof (exp_pos (a' + b')); lra|]. destruct (Req_EM_T (exp (a + b)) 0) as [e|_]; [pose proof (exp_pos (a + b)); lra|].
    unfold acceptance in Q. replace (exp (a' + b') / exp (a + b))%R with (exp (q + - q + (a' + - a) + (b' + - b))).
    - destruct (Rlt_dec v _) as [y|n]; [now apply Q|]. apply not_true_is_false. intros E. now apply n, Q.
    - unfold Rdiv. rewrite <- exp_Ropp, <- exp_plus. f_equal. ring. }
  all: rewrite ?X1, ?X2, ?X3; unfold chance.
  all: repeat match goal with |- context [Req_EM_T ?x 0] => destruct (Req_EM_T x 0) as [?e|?n] end; try reflexivity.
  all: repeat match goal with |- context [Rlt_dec ?w ?x] => destruct (Rlt_dec w x) as [?y|?n] end; try reflexivity; try lra.
  all: exfalso.
  all: try (match goal with H : (exp ?x * exp ?y = 0)%R |- _ => pose proof (Rmult_lt_0_compat _ _ (exp_pos x) (exp_pos y)); lra end).
  all: try (match goal with H : (_ <> 0)%R |- _ => apply H; ring end).
Qed.

Section Onwards.
  Context {T F D : Type} (ll : F -> xf) (log_prior : T -> xf) (b : nat).
  Context (L : law D) (HL : law_ok L) (M : measure (T * F)) (HM : measure_ok M).
  Context (cand : D -> nat -> T -> T) (filt : D -> nat -> T -> F).
  Definition onto (d : D) (z : T * F) : T * F := (cand d b (fst z), filt d b (cand d b (fst z))).
  Notation height := (posterior log_prior ll).
  Context (G : (T * F -> T * F -> R) -> Prop) (H : (T * F -> R) -> Prop) (HH : testable M L onto height G H).
  Definition onward (h : T * F -> R) (z : T * F) : R := mean L (fun d => moved height h z (onto d z)).
  Fixpoint onwards (n : nat) (h : T * F -> R) : T * F -> R := match n with O => h | S n => onward (onwards n h) end.
  Lemma onwards_test n h : H h -> H (onwards n h).
  Proof. intros Hh. induction n as [|n IH]; [exact Hh|]. apply (test_next _ _ _ _ _ _ HH _ IH). Qed.

  Context (Hrev : reversible M L onto G).
  Lemma onward_integral h m : H h -> integral M (fun z => height z * h z)%R m -> integral M (fun z => height z * onward h z)%R m.
  Proof.
    intros Hh Hm. destruct (test_there _ _ _ _ _ _ HH h Hh) as (m1 & T1). destruct (test_here _ _ _ _ _ _ HH h Hh) as (m2 & T2).
    assert (E : m2 = m1).
    { refine (Hrev _ m1 m2 (test_class _ _ _ _ _ _ HH h Hh) T1 _). destruct T2 as [T2a T2b]. split.
      - intros z Hz. apply (law_ext _ HL (fun d => (Rmin (height z) (height (onto d z)) * h z)%R)); [|now apply T2a]. intros d _. now rewrite Rmin_comm.
      - refine (integral_ext _ HM _ _ _ _ T2b). intros z Hz. symmetry. apply (law_ext _ HL (fun d => (Rmin (height z) (height (onto d z)) * h z)%R)); [|now apply T2a]. intros d _. now rewrite Rmin_comm. }
    subst m2. destruct T1 as [T1a T1b]. destruct T2 as [T2a T2b].
    pose proof (integral_lin _ HM 1 1 _ _ _ _ Hm (integral_lin _ HM 1 (-1) _ _ _ _ T1b T2b)) as I. cbn beta in I.
    replace (1 * m + 1 * (1 * m1 + -1 * m1))%R with m in I by ring. refine (integral_ext _ HM _ _ _ _ I). intros z Hz. cbn beta.
    assert (A1 : averages L (fun d => Rmin (height z) (height (onto d z)) * h (onto d z))%R (mean L (fun d => Rmin (height z) (height (onto d z)) * h (onto d z))%R)) by (split; [now apply T1a|reflexivity]).
    assert (A2 : averages L (fun d => Rmin (height z) (height (onto d z)) * h z)%R (mean L (fun d => Rmin (height z) (height (onto d z)) * h z)%R)) by (split; [now apply T2a|reflexivity]).
    assert (A3 : averages L (fun d => moved height h z (onto d z)) (onward h z)) by (split; [now apply (test_moved _ _ _ _ _ _ HH h Hh z Hz)|reflexivity]).
    pose proof (averages_lin L HL 1 (-1) _ _ _ _ A1 A2) as A4. pose proof (averages_lin L HL 1 1 _ _ _ _ (averages_const L HL (height z * h z)%R) A4) as A5. cbn beta in A5.
    refine (averages_unique L _ _ _ A5 _). apply (averages_ext L HL (fun d => height z * moved height h z (onto d z))%R).
    - intros d Hd. unfold moved. pose proof (chance_flow (height (onto d z)) (height z) (posterior_nonneg _ _ _) (posterior_nonneg _ _ _)) as Fl. rewrite <- Fl. ring.
    - now apply averages_scal.
  Qed.
  Lemma onwards_integral n h m : H h -> integral M (fun z => height z * h z)%R m -> integral M (fun z => height z * onwards n h z)%R m.
  Proof. intros Hh Hm. induction n as [|n IH]; [exact Hm|]. apply onward_integral; [now apply onwards_test|exact IH]. Qed.
End Onwards.

Section Walk.
  Context {F D : Type} (ll : F -> xf) (log_prior : list R -> xf) (scale : list R) (B b : nat) (Hb : b < B).
  Context (L : law D) (HL : law_ok L) (M : measure (list R * F)) (HM : measure_ok M).
  Context (rvs : D -> list (list R * list R) -> list (list R)) (run : D -> list (list R) -> list F)
    (cand : D -> nat -> list R -> list R) (filt : D -> nat -> list R -> F).
  Context (Hrvs : samples_ok B rvs scale cand) (Hrun : forall d, run_ok B (run d) (filt d)).
  Notation onto := (onto b cand filt).
  Notation onwards := (onwards ll log_prior b L cand filt).
  Context (Hclosed : forall d z, supp L d -> among M z -> among M (onto d z)).
  Context (Hproper : forall z, among M z -> proper (log_prior (fst z)) /\ proper (ll (snd z))).
  Notation height := (posterior log_prior ll).
  Notation step := (run_pmmh ll log_prior (walk_build scale) walk_log_prob walk_exchange).

  Lemma walk_log_prob_len k rows : List.length k = List.length rows -> List.length (walk_log_prob k rows) = List.length rows.
  Proof. intros E. unfold walk_log_prob. now apply zip_len. Qed.

  Lemma step_chain d u c z : supp L d -> supp (uniforms B) u -> chains_ok B c -> centred scale c -> at_chain b c z -> among M z ->
    let c' := fst (step (rvs d (kern c)) (run d) [] u true c) in
    chains_ok B c' /\ centred scale c' /\
    at_chain b c' (if Rlt_dec (nth b u 0%R) (chance (height (onto d z)) (height z)) then onto d z else z).
  Proof.
    intros Hd Hu C Ce [A1 A2] Hz c'. destruct (uniforms_supp B u Hu) as [Lu Hv]. destruct (Hv b Hb) as (v & Ev & V).
    destruct C as [C1 C2]. destruct (Hrvs d (positions c) C1) as [R1 R2]. pose proof Ce as Ce'. unfold centred in Ce. rewrite <- Ce in R1, R2.
    destruct (Hrun d _ R1) as [N1 N2]. pose proof (walk_step ll log_prior scale B (rvs d (kern c)) (run d) [] u c (conj C1 C2) Ce' R1 N1 Lu) as [S1 S2].
    split; [exact S1|]. split; [exact S2|].
    specialize (R2 b _ A1). specialize (N2 b _ R2).
    assert (Q : exists q, normal_log_prob (cand d b (fst z)) scale (fst z) = Fin q) by (eexists; reflexivity). destruct Q as [q Q].
    pose proof (accepted_nth ll log_prior (walk_build scale) walk_log_prob walk_exchange (rvs d (kern c)) (run d) [] u true c b _ _ _ _ (Fin q) (Fin q) v R2 A1 A2 N2) as Acc.
    assert (Z' : among M (onto d z)) by now apply Hclosed.
    rewrite (nth_error_nth _ _ 0%R Ev). destruct z as [t f]. cbn [fst snd] in *. unfold StationaryProofs.onto in *. cbn [fst snd] in *. 
    rewrite (ratio_chance ll log_prior t (cand d b t) f (filt d b (cand d b t)) q v) in Acc;
      [|apply (Hproper (t, f) Hz)|apply (Hproper _ Z')|apply (Hproper (t, f) Hz)|apply (Hproper _ Z')|exact V].
    specialize (Acc ltac:(unfold walk_build; rewrite (walk_probs scale _ (positions c) B) by auto; rewrite (zip_nth _ _ _ b _ t R2 A1); now rewrite Q)).
    specialize (Acc ltac:(rewrite Ce at 1; rewrite (walk_probs scale _ (rvs d (kern c)) B) by auto; rewrite (zip_nth _ _ _ b t _ A1 R2); now rewrite normal_sym, Q)).
    specialize (Acc Ev).
    assert (P : positions c' = where_ (snd (step (rvs d (kern c)) (run d) [] u true c)) (rvs d (kern c)) (positions c) /\
                results c' = where_ (snd (step (rvs d (kern c)) (run d) [] u true c)) (run d (rvs d (kern c))) (results c)) by (split; reflexivity).
    destruct P as [P1 P2]. split; rewrite ?P1, ?P2; [rewrite (where_nth _ _ _ b _ _ _ Acc R2 A1)|rewrite (where_nth _ _ _ b _ _ _ Acc N2 A2)]; destruct (Rlt_dec v _); reflexivity.
  Qed.

  Context (G : (list R * F -> list R * F -> R) -> Prop) (H : (list R * F -> R) -> Prop) (HH : testable M L onto height G H).
  Lemma iterate_onwards h : H h -> forall n r c z w samples (f : @stream D (list R) -> R),
    chains_ok B c -> centred scale c -> at_chain b c z -> among M z ->
    (forall w', agree r w w' -> f w' = look_at b h (fst (iterate ll log_prior (walk_build scale) walk_log_prob walk_exchange n r
       (fun i => rvs (fst (w' i))) (fun i => run (fst (w' i))) (fun i => snd (w' i)) c samples))) ->
    averages_over L (uniforms B) n r f w (onwards n h z).
  Proof.
    intros Hh n. induction n as [|n IH]; intros r c z w samples f C Ce A Hz Hf.
    - split; [exact I|]. cbn [average]. rewrite Hf by (intros i Hi; reflexivity). cbn [iterate fst StationaryProofs.onwards]. unfold look_at. destruct A as [-> ->]. now destruct z.
    - pose proof (onwards_test ll log_prior b L M cand filt G H HH n h Hh) as Hg. set (g := onwards n h) in *.
      apply (over_step L (uniforms B) HL (uniforms_law B) n r f w (fun d u => g (if Rlt_dec (nth b u 0%R) (chance (height (onto d z)) (height z)) then onto d z else z))
        (fun d => moved height g z (onto d z))).
      + intros d u Hd Hu. destruct (step_chain d u c z Hd Hu C Ce A Hz) as (C' & Ce' & A').
        set (c' := fst (step (rvs d (kern c)) (run d) [] u true c)) in *.
        apply (IH (S r) c' _ (put w r (d, u)) (samples ++ [positions c']) f C' Ce' A').
        * destruct (Rlt_dec _ _); [now apply Hclosed|exact Hz].
        * intros w' Ha. destruct (agree_put r w (d, u) w' Ha) as [E Ha']. rewrite (Hf w' Ha'). cbn [iterate]. rewrite E. reflexivity.
      + intros d Hd. unfold moved. apply (averages_ext (uniforms B) (uniforms_law B) (fun u => if Rlt_dec (nth b u 0%R) (chance (height (onto d z)) (height z)) then g (onto d z) else g z)).
        * intros u _. now destruct (Rlt_dec _ _).
        * apply uniforms_below; [exact Hb|]. apply chance_range; apply posterior_nonneg.
      + split; [|reflexivity]. now apply (test_moved _ _ _ _ _ _ HH g Hg z Hz).
  Qed.

End Walk.
