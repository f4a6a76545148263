(** Property C46 (pyfilter/inference/context.py:141-154, 360-373). *)
From Coq Require Import Reals List Bool Arith String Lia.
From Verif.Model Require Import Base Xf Prior Context.
From Verif.Spec Require Import ContextSpec.
From Verif.Proofs Require Import ContextProofs.
From Verif.Props Require Import ContextProps.
Import ListNotations.
Local Open Scope list_scope.
Local Open Scope nat_scope.

Definition flag (c : nat) (b : bool) (w : world) : Prop := exists_ctx w c /\ verifies w c = b.
Lemma flag_put_data c b a t : keeps (flag c b) (put_data a t). Proof. now intros w. Qed.
Lemma flag_set_data c b a t : keeps (flag c b) (set_data a t). Proof. now intros w. Qed.
Lemma flag_put c b w c' x : flag c b w -> x_verify x = x_verify (ctx_at w c') -> flag c b (fst (put_ctx c' x w)).
Proof.
  intros [H V] E. split; [now apply exists_put|]. unfold verifies. rewrite ctx_put. destruct (Nat.eqb_spec c c') as [<-|_]; [|exact V]. destruct (_ <? _); [cbn; rewrite E; exact V|exact V].
Qed.
Lemma flag_set_batch c b c' s : keeps (flag c b) (set_batch_shape c' s).
Proof.
  intros w F. unfold set_batch_shape, abind, get_ctx. fold (ctx_at w c'). destruct (x_batch (ctx_at w c')); [destruct list_eq_dec; exact F|]. now apply flag_put.
Qed.
Lemma flag_new c b q : keeps (flag c b) (new_ctx (empty_ctx q)).
Proof.
  intros w [H V]. unfold flag, exists_ctx in *. split; [cbn; rewrite app_length; cbn; lia|]. unfold verifies. rewrite ctx_new.
  destruct (Nat.eqb_spec c (List.length (w_ctxs w))); [lia|exact V].
Qed.
Lemma flag_copy_rows c b p rows : keeps (flag c b) (copy_rows p rows).
Proof. unfold copy_rows. keeps_tac. apply flag_put_data. Qed.
#[local] Hint Resolve flag_put_data flag_set_data flag_set_batch flag_new flag_copy_rows : keeps.
Lemma flag_named sample c b c' n d : keeps (flag c b) (named_parameter sample c' n d).
Proof.
  intros w F. rewrite named_eq. destruct (x_batch (ctx_at w c')) as [s|] eqn:X; [|exact F]. pose proof (some_exists w c' s X) as H.
  destruct (prior_at w c' n) as [k|]; [destruct (verifies w c'); [destruct (equivalent_to k d) as [[|]|]|]; exact F|].
  rewrite register_eq by exact H. destruct (d_batched d); cbn [fst].
  - apply (flag_put c b w c' (with_prior (ctx_at w c') n d) F eq_refl).
  - apply (flag_put c b w c' (with_param (ctx_at w c') n d (List.length (w_objs w))) F eq_refl).
Qed.
#[local] Hint Resolve flag_named : keeps.
Lemma flag_update_values c b p rows k : keeps (flag c b) (update_values p rows k).
Proof. unfold update_values. keeps_tac. Qed.
#[local] Hint Resolve flag_update_values : keeps.
Lemma flag_perform sample c b o : (match o with OVerify _ _ => False | _ => True end) -> keeps (flag c b) (perform sample o).
Proof.
  intros N. destruct o; cbn [perform]; apply keeps_bind; try (intros; apply keeps_ret); auto with keeps; try easy.
  - unfold unstack_parameters. keeps_tac. apply keeps_apply. intros. auto with keeps.
  - unfold resample. keeps_tac.
  - unfold exchange. keeps_tac.
  - unfold load_state_dict. keeps_tac.
  - unfold copy, apply_fun. keeps_tac. all: destruct a1 as [[[? ?] ?] ?]; keeps_tac.
Qed.
Lemma set_verify_flag w c b : exists_ctx w c -> flag c b (fst (set_verify c b w)).
Proof.
  intros H. unfold set_verify, abind, get_ctx. fold (ctx_at w c). split; [now apply exists_put|]. unfold verifies. rewrite ctx_put, Nat.eqb_refl.
  apply Nat.ltb_lt in H. now rewrite H.
Qed.
Lemma set_verify_other w c c' b b' : c' <> c -> flag c b w -> flag c b (fst (set_verify c' b' w)).
Proof.
  intros N [H V]. unfold set_verify, abind, get_ctx. fold (ctx_at w c'). split; [now apply exists_put|]. unfold verifies. rewrite ctx_put.
  destruct (Nat.eqb_spec c c'); [congruence|exact V].
Qed.
Lemma set_verify_exists w c c' b : exists_ctx w c -> exists_ctx (fst (set_verify c' b w)) c.
Proof. intros H. unfold set_verify, abind, get_ctx. now apply exists_put. Qed.
Lemma block_eq sample c p w : run sample (Block c p) w =
  (fst (set_verify c true (fst (run sample p (fst (set_verify c false w))))), snd (run sample p (fst (set_verify c false w)))).
Proof.
  cbn [run]. unfold no_prior_verification. change ((do! _ <- set_verify c false in run sample p) w) with (run sample p (fst (set_verify c false w))).
  destruct (run sample p (fst (set_verify c false w))). reflexivity.
Qed.

Lemma visited_flag sample c p : forall inside w, flag_untouched p -> not_nested c inside p -> flag c (negb inside) w ->
  Forall (fun v => verifies (snd (fst v)) c = negb (fst (fst v))) (visited sample c inside p w) /\ flag c (negb inside) (fst (run sample p w)).
Proof.
  induction p as [o|p IHp q IHq|p IH|c' p IH]; intros inside w U N F.
  - split; [|cbn [run]; apply flag_perform; [destruct o; auto|exact F]]. repeat constructor. exact (proj2 F).
  - cbn [flag_untouched not_nested visited run] in *. destruct U as [U1 U2], N as [N1 N2]. destruct (IHp inside w U1 N1 F) as [V1 F1]. unfold abind.
    destruct (run sample p w) as [w' [a|e]]; cbn [fst] in F1.
    + destruct (IHq inside w' U2 N2 F1) as [V2 F2]. split; [now apply Forall_app|exact F2].
    + split; [|exact F1]. now rewrite app_nil_r.
  - cbn [flag_untouched not_nested visited run] in *. destruct (IH inside w U N F) as [V1 F1]. split; [exact V1|]. destruct (run sample p w). exact F1.
  - cbn [flag_untouched not_nested visited] in *. destruct N as [N1 N2]. rewrite block_eq. cbn [fst].
    destruct (Nat.eqb_spec c' c) as [->|D].
    + rewrite orb_true_r in *. rewrite (N1 eq_refl) in *. destruct (IH true (fst (set_verify c false w)) U N2) as [V1 F1]; [apply set_verify_flag, F|].
      split; [exact V1|]. apply set_verify_flag. apply F1.
    + rewrite orb_false_r in *. destruct (IH inside (fst (set_verify c' false w)) U N2) as [V1 F1]; [now apply set_verify_other|].
      split; [exact V1|]. now apply set_verify_other.
Qed.

(** Verification is off at exactly the calls made within a block, and on after the program, whatever raises where: for
    programs without a block within a block of the same context. *)
Theorem C46_scoped_partial : forall sample c p w, exists_ctx w c -> verifies w c = true -> flag_untouched p -> not_nested c false p ->
  Forall (fun v => verifies (snd (fst v)) c = negb (fst (fst v))) (visited sample c false p w) /\ verifies (fst (run sample p w)) c = true.
Proof.
  intros sample c p w H V U N. destruct (visited_flag sample c p false w U N) as [A B]; [now split|]. split; [exact A|apply B].
Qed.
Print Assumptions C46_scoped_partial.

Lemma run_exists sample c p : forall w, exists_ctx w c -> flag_untouched p -> exists_ctx (fst (run sample p w)) c.
Proof.
  induction p as [o|p IHp q IHq|p IH|c' p IH]; intros w H U; cbn [flag_untouched] in U.
  - cbn [run]. assert (F : flag c (verifies w c) w) by now split. apply (flag_perform sample c _ o) in F; [apply F|]. destruct o; auto.
  - cbn [run]. unfold abind. pose proof (IHp w H (proj1 U)) as H1. destruct (run sample p w) as [w' [a|e]]; cbn in *; [|exact H1]. apply IHq; tauto.
  - cbn [run]. pose proof (IH w H U) as H1. destruct (run sample p w). exact H1.
  - rewrite block_eq. cbn [fst]. apply set_verify_exists. apply IH; [now apply set_verify_exists|exact U].
Qed.
(** After a block, verification is on: also after nested ones, also if the block raises. *)
Theorem C46_on_afterwards : forall sample c p w, exists_ctx w c -> flag_untouched p -> verifies (fst (run sample (Block c p) w)) c = true.
Proof.
  intros sample c p w H U. rewrite block_eq. cbn [fst]. apply set_verify_flag. apply run_exists; [|exact U]. now apply set_verify_exists.
Qed.
Print Assumptions C46_on_afterwards.

(** What it means: within a block a known name is returned whatever prior is given; outside another prior is refused. *)
Theorem C46_meaning : forall sample c n d k p b w, batch_of w c = Some b -> prior_at w c n = Some k -> param_id w c n = Some p ->
  (verifies w c = false -> perform sample (ORegister c n d) w = (w, Ok (Some p))) /\
  (verifies w c = true -> equivalent_to k d = Ok false -> perform sample (ORegister c n d) w = (w, Raise NotSamePriorError)).
Proof.
  intros sample c n d k p b w B K P. cbn [perform]. unfold abind. rewrite named_eq. unfold batch_of in B. rewrite B, K. split.
  - intros ->. rewrite P. reflexivity.
  - intros -> ->. reflexivity.
Qed.
Print Assumptions C46_meaning.

(** The claim fails for nested blocks: after the inner one verification is on although the outer one is still open. *)
Theorem C46_nested_refuted : forall sample c p o w w' r, exists_ctx w c -> flag_untouched p ->
  run sample (Block c p) (fst (set_verify c false w)) = (w', Ok r) ->
  In (true, w', o) (visited sample c false (Block c (Seq (Block c p) (Do o))) w) /\ verifies w' c = true.
Proof.
  intros sample c p o w w' r H U E. split.
  - cbn [visited]. rewrite Nat.eqb_refl, orb_true_r. rewrite E. apply in_or_app. right. now left.
  - pose proof (C46_on_afterwards sample c p (fst (set_verify c false w)) (set_verify_exists w c c false H) U) as K. now rewrite E in K.
Qed.
Print Assumptions C46_nested_refuted.

Example C46_nonvacuous : let w := history some_sample opening no_world in
  exists_ctx w 0 /\ verifies w 0 = true /\
  (let p := Seq (Try (Block 0 (Seq (Do (ORegister 0 "a" simplex_prior)) (Do (OShape 0 [3]))))) (Do (ORegister 0 "a" simplex_prior)) in
   flag_untouched p /\ not_nested 0 false p /\ map (fun v => fst (fst v)) (visited some_sample 0 false p w) = [true; true; false] /\
   snd (run some_sample p w) = Raise NotSamePriorError) /\
  (exists w', run some_sample (Block 0 (Do (ORegister 0 "a" simplex_prior))) (fst (set_verify 0 false w)) = (w', Ok (Some 0))).
Proof.
  intros w. split; [cbv; lia|]. split; [reflexivity|]. split.
  - intros p. split; [cbn; auto|]. split; [cbn; auto|]. split; [reflexivity|reflexivity].
  - eexists. cbv -[IZR]. reflexivity.
Qed.
