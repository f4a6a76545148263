(** A small concrete environment for the examples and counterexamples about sequential algorithms: two parameter particles;
    a parameter and the state of a filter are numbers; an observation tells the likelihood increment of a filter with
    [np] state particles and parameter [theta]; resampling picks slot 1 twice; jittering adds one; every proposal is [7; 8]. *)
From Coq Require Import Reals List Bool Arith Lia Lra.
From Verif.Model Require Import Base Xf Weights Pmmh Sequential.
From Verif.Spec Require Import PmmhSpec SequentialSpec.
From Verif.Proofs Require Import WeightsProofs SequentialProofs.
From Verif.Props Require Import PmmhProps.
Import ListNotations.
Local Open Scope nat_scope.

(** [computed]: the model computes with the parameters it is built from, instead of holding the parameters. *)
Definition toy (computed : bool) : env nat nat (nat -> nat -> xf) unit :=
  Env nat nat (nat -> nat -> xf) unit (-1000)%R 2
    (fun r np b built now => 0)
    (fun r np b built now y f => (S f, y np (if computed then built else now)))
    (fun r w => [1; 1]) (fun r rows w idx => map (fun i => S (nth i rows 0)) idx) (fun r => [true; false])
    (fun rows w fs => tt) (fun k rows => map (fun _ => Fin 0) rows) (fun k k' m => tt) (fun r k => [7; 8]) (fun r => [1 / 2; 1 / 2]%R) (fun t => Fin 0) (fun a b => 0%R).

Lemma toy_ok computed : env_ok (toy computed).
Proof.
  unfold env_ok. cbn. split; [lia|]. split; [intros; split; [reflexivity|repeat constructor]|]. split; [intros r rows w idx _ L; now rewrite map_length|].
  split; [reflexivity|]. split; [reflexivity|]. split; [intros k rows; apply map_length|reflexivity].
Qed.

(** Observations: nothing learnt; unusable for parameter 0; impossible for the proposals 7 and 8; unusable for everything. *)
Definition flat : nat -> nat -> xf := fun np theta => Fin 0.
Definition nan_at_0 : nat -> nat -> xf := fun np theta => if theta =? 0 then NaN else Fin 0.
Definition counts_np : nat -> nat -> xf := fun np theta => if theta =? 0 then NaN else if 7 <=? theta then NInf else Fin (INR np).
Definition hopeless : nat -> nat -> xf := fun np theta => NaN.
Definition impossible : nat -> nat -> xf := fun np theta => NInf.
Definition echo : nat -> nat -> xf := fun np theta => Fin (INR theta).

(** SMC2 with the library's defaults except for the number of steps. *)
Definition smc2_half : smc2_cfg := Smc2Cfg (fun _ => 1 / 2)%R 1 (1 / 5)%R 5 None.

Lemma half_ok : (0 <= 1 / 2 < 1)%R. Proof. lra. Qed.
Lemma not_below_one e : ess_entry e -> xlt e (Fin (1 / 2 * 2)) = false.
Proof. intros [->|(r & -> & L)]; cbn; [reflexivity|]. destruct (Rlt_dec r (1 / 2 * 2)); [lra|reflexivity]. Qed.
Lemma inr2 : INR 2 = 2%R. Proof. cbn. lra. Qed.

Lemma toy_pstep computed np rnd k x : pstep (toy computed) np [counts_np] rnd k [1; 1] [(1, Fin x); (1, Fin x)] = (Chains [1; 1] [(1, Fin x); (1, Fin x)] k, [false; false]).
Proof.
  pose proof (proj1 (proj2 (xlog_below_one (1 / 2) half_ok))) as X. unfold pstep, run_pmmh.
  assert (B : batch_filter (toy computed) (rnd + 1) np [7; 8] [7; 8] [counts_np] = [(1, NInf); (1, NInf)]) by (destruct computed; reflexivity).
  change (e_sample (toy computed) rnd k) with [7; 8]. rewrite B. unfold zip_with. cbn [map combine snd fst results positions kern toy e_uniforms e_log_prior e_log_prob xsub xopp xadd].
  rewrite X. reflexivity.
Qed.

(** A rejuvenation of SMC2 that rejects all proposals and so doubles the state particles. *)
Lemma toy_increase computed np rnd u ess : exists old new rnd' e,
  base_step (toy computed) (SMC2 smc2_half) inst0 (World [0; 1] [0; 1] np rnd u) counts_np (St [Fin 0; Fin 0] [(0, Fin 0); (0, Fin 0)] ess (Some []) 0) =
    (Inst 0 1, World [1; 1] [1; 1] (np * 2) rnd' (S u), Ok (Fresh old new)) /\
  old = St [Fin (-1000); Fin (0 + INR np)] [(1, Fin (0 + INR np)); (1, Fin (0 + INR np))] (ess ++ [e]) (Some [counts_np]) 0 /\
  new = St [Fin (0 + INR (np * 2) + - (0 + INR np)); Fin (0 + INR (np * 2) + - (0 + INR np))] [(1, Fin (0 + INR (np * 2))); (1, Fin (0 + INR (np * 2)))] (ess ++ [e]) (Some [counts_np]) 0.
Proof.
  set (E := toy computed). pose proof (toy_ok computed) as OK. fold E in OK. cbn [base_step s_data s_w s_fs s_ess s_iter app].
  set (s0 := St _ _ _ _ _). set (g := World _ _ _ _ _).
  destruct (absorb_ok E OK g counts_np s0) as (_ & e & -> & _ & _); [split; reflexivity|split; reflexivity|].
  assert (Ec : corrections E (g_rnd g) (g_np g) (g_model g) (g_ctx g) counts_np (s_fs s0) = [(1, NaN); (1, Fin (INR np))]) by (destruct computed; reflexivity).
  rewrite Ec. cbn [s0 s_w s_fs s_ess s_data s_iter map snd zip_with combine xadd nan_to_num append_result fst]. unfold zip_with, append_result, zip_with. cbn [map combine fst snd xadd nan_to_num].
  set (s1 := St _ _ _ _ _). match goal with |- context [nonfinite ?w] => replace (nonfinite w) with true by reflexivity end. rewrite orb_true_r.
  destruct (pmmh_ok E OK smc2_half 0 (tick 1 g) s1 [counts_np]) as (p & idx & rows & fs & _ & -> & _ & _ & Er & Ef & _ & _ & M); [split; reflexivity|split; reflexivity|reflexivity|].
  cbn in Er, Ef. injection Er as <-. injection Ef as <-. cbn [smc2_half c_steps] in M. rewrite moves_unfold in M.
  assert (Ep : pstep E (g_np (tick 1 g)) [counts_np] (g_rnd (tick 1 g) + 2) (e_build E (g_ctx (tick 1 g)) (map (nan_to_num (e_lowest E)) (s_w s1)) (s_fs s1)) [1; 1] [(1, Fin (0 + INR np)); (1, Fin (0 + INR np))] =
    (Chains [1; 1] [(1, Fin (0 + INR np)); (1, Fin (0 + INR np))] tt, [false; false])).
  { apply toy_pstep. }
  rewrite Ep in M. cbv zeta in M. assert (Rt : ((accepted_fraction [false; false] + INR 0 * 0) / INR 1 < c_accept smc2_half)%R) by (unfold accepted_fraction; cbn; lra).
  destruct (Rlt_dec _ _) as [_|N]; [|contradiction]. clear Rt. destruct M as (M1 & M2 & M3). cbn [i_increases inst0 i_blocks]. rewrite M3. clear M3. cbn [positions results] in *.
  unfold increase_states. cbn [smc2_half c_max Nat.ltb Nat.leb g_np g_ctx g_rnd tick g]. 
  set (fs := batch_filter _ _ _ _ _ _). assert (Efs : fs = [(1, Fin (0 + INR (np * 2))); (1, Fin (0 + INR (np * 2)))]) by (destruct computed; reflexivity). rewrite Efs.
  cbn [s_fs]. unfold zip_with. cbn [map combine fst snd xsub xopp xadd]. unfold new_state. match goal with |- context [get_ess ?l ?w false] => destruct (get_ess_ok l w) as [e' ->]; [discriminate|] end.
  cbn [bind s_w map nan_to_num]. do 4 eexists. split; [reflexivity|]. split; reflexivity.
Qed.
