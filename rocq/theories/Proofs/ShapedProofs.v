(** How the operations of Model/Shaped.v act on what tensors say. *)
From Coq Require Import List Arith Bool Reals Lia Lra.
From Verif.Model Require Import Base Shaped ShapedCode.
From Verif.Spec Require Import ShapedSpec.
Import ListNotations.
Local Open Scope nat_scope.

Lemma bidx_shrink : forall a i, bidx a i = shrink a i.
Proof.
  induction a as [|m a IH]; intros [|k i]; cbn [bidx shrink]; auto.
  - destruct m as [|[|m]]; reflexivity.
  - rewrite IH. destruct m as [|[|m]]; reflexivity.
Qed.

Lemma stretches_refl : forall s, stretches s s.
Proof. induction s; constructor; auto. Qed.

Lemma shrink_inside : forall s i, inside s i -> shrink s i = i.
Proof.
  induction s as [|n s IH]; intros [|k i] H; cbn in *; try contradiction; auto.
  destruct H as [L H]. destruct n as [|[|n]]; [lia| |]; f_equal; auto. lia.
Qed.

Lemma holds_reads : forall t s f, holds t s f -> reads t s f.
Proof.
  intros t s f [E H]. split. rewrite E; apply stretches_refl.
  intros i Hi. rewrite E, shrink_inside by auto. auto.
Qed.

Lemma stretches_tail : forall m a n s, stretches (m :: a) (n :: s) -> stretches a s.
Proof. intros m a n s H. inversion H; auto. Qed.

Lemma shrink_idem : forall a s i, stretches a s -> inside s i -> shrink a (shrink a i) = shrink a i.
Proof.
  intros a s i H. revert i. induction H; intros [|k i] Hi; cbn in Hi; try contradiction; auto; destruct Hi as [L Hi].
  - destruct n as [|[|n]]; cbn; f_equal; auto.
  - cbn; f_equal; auto.
Qed.

Lemma shrink_nil : forall i, shrink [] i = [].
Proof. reflexivity. Qed.

Lemma shrink_cons : forall m a k i, shrink (m :: a) (k :: i) = (if m =? 1 then 0 else k) :: shrink a i.
Proof. intros [|[|m]] a k i; reflexivity. Qed.

(** Two shapes that stretch to [s] combine to one that does. *)
Lemma bshape_join : forall s a b, stretches a s -> stretches b s ->
  exists r, bshape a b = Ok r /\ stretches r s
    /\ (forall i, inside s i -> shrink a (shrink r i) = shrink a i)
    /\ (forall i, inside s i -> shrink b (shrink r i) = shrink b i)
    /\ (a = s -> r = s) /\ (b = s -> r = s).
Proof.
  induction s as [|n s IH]; intros a b Ha Hb.
  - inversion Ha; subst. inversion Hb; subst. exists []. cbn. repeat split; auto; intros; constructor.
  - destruct a as [|m a].
    { exists b. split. reflexivity. split. auto. split. reflexivity. split.
      intros i Hi. eapply shrink_idem; eauto. split. intros E; discriminate E. auto. }
    destruct b as [|q b].
    { exists (m :: a). split. reflexivity. split. auto. split.
      intros i Hi. eapply shrink_idem; eauto. split. reflexivity. split. auto. intros E; discriminate E. }
    assert (Sa : stretches a s /\ (m = n \/ m = 1)) by (inversion Ha; auto).
    assert (Sb : stretches b s /\ (q = n \/ q = 1)) by (inversion Hb; auto).
    destruct Sa as [Sa Ma]. destruct Sb as [Sb Mb].
    destruct (IH _ _ Sa Sb) as (r & E & G & J & K & P & Q).
    set (d := if m =? q then m else if m =? 1 then q else m).
    assert (D : d = n \/ d = 1 /\ m = 1 /\ q = 1).
    { unfold d. destruct (Nat.eqb_spec m q); [|destruct (Nat.eqb_spec m 1)]; lia. }
    exists (d :: r). split.
    { cbn [bshape]. rewrite E. cbn [bind]. unfold d.
      destruct (Nat.eqb_spec m q); auto. destruct (Nat.eqb_spec m 1); auto. destruct (Nat.eqb_spec q 1); auto. lia. }
    clearbody d.
    assert (Z : forall x, x = m \/ x = q -> forall k, k < n -> (if x =? 1 then 0 else if d =? 1 then 0 else k) = (if x =? 1 then 0 else k)).
    { intros x Hx k L. destruct (Nat.eqb_spec x 1); auto. destruct (Nat.eqb_spec d 1); auto. lia. }
    split. { destruct D as [->|(-> & _)]; [apply stretches_same|apply stretches_one]; auto. }
    split. { intros [|k i] Hi; cbn in Hi; try contradiction. destruct Hi as [L Hi]. rewrite !shrink_cons, J, Z by auto. reflexivity. }
    split. { intros [|k i] Hi; cbn in Hi; try contradiction. destruct Hi as [L Hi]. rewrite !shrink_cons, K, Z by auto. reflexivity. }
    split; intros X; injection X as -> ->; f_equal; auto; lia.
Qed.

Lemma bshape_exact : forall s a, stretches a s -> bshape s a = Ok s /\ bshape a s = Ok s.
Proof.
  intros s a H. split.
  - destruct (bshape_join s s a (stretches_refl s) H) as (r & E & _ & _ & _ & P & _). rewrite E, P; auto.
  - destruct (bshape_join s a s H (stretches_refl s)) as (r & E & _ & _ & _ & _ & P). rewrite E, P; auto.
Qed.

Lemma lift2_reads : forall op t u s f g, reads t s f -> reads u s g ->
  exists v, lift2 op t u = Ok v /\ reads v s (fun i => op (f i) (g i)) /\ (shp t = s \/ shp u = s -> shp v = s).
Proof.
  intros op t u s f g [Ht Et] [Hu Eu]. destruct (bshape_join s _ _ Ht Hu) as (r & E & G & J & K & P & Q).
  unfold lift2. rewrite E. cbn [bind]. eexists. split. reflexivity. split; [|cbn; intros [A|A]; auto].
  split. exact G. intros i Hi. cbn. rewrite !bidx_shrink, J, K by auto. rewrite Et, Eu by auto. reflexivity.
Qed.

Lemma reads_exact : forall t s f, reads t s f -> shp t = s -> holds t s f.
Proof.
  intros t s f [_ E] H. split; auto. intros i Hi. rewrite <- E by auto. rewrite H, shrink_inside; auto.
Qed.

Lemma lift2_holds : forall op t u s f g, reads t s f -> reads u s g -> shp t = s \/ shp u = s ->
  exists v, lift2 op t u = Ok v /\ holds v s (fun i => op (f i) (g i)).
Proof.
  intros op t u s f g H1 H2 H. destruct (lift2_reads op _ _ _ _ _ H1 H2) as (v & E & R & X).
  exists v. split; auto. apply reads_exact; auto.
Qed.

Lemma lift1_reads : forall op t s f, reads t s f -> reads (lift1 op t) s (fun i => op (f i)).
Proof. intros op t s f [H E]. split. exact H. intros i Hi. cbn. f_equal. auto. Qed.

Lemma reads_ext : forall t s f g, reads t s f -> (forall i, inside s i -> f i = g i) -> reads t s g.
Proof. intros t s f g [H E] X. split; auto. intros i Hi. rewrite <- X by auto. auto. Qed.

Lemma holds_ext : forall t s f g, holds t s f -> (forall i, inside s i -> f i = g i) -> holds t s g.
Proof. intros t s f g [H E] X. split; auto. intros i Hi. rewrite <- X by auto. auto. Qed.

Lemma unsqueeze1_reads : forall t s f k, reads t s f -> reads (unsqueeze1 t) (k :: s) (fun i => f (tl i)).
Proof.
  intros t s f k [H E]. split. cbn. apply stretches_one; auto.
  intros [|j i] Hi; cbn in Hi; try contradiction. destruct Hi. cbn. auto.
Qed.

Lemma unsqueeze1_holds : forall t s f, holds t s f -> holds (unsqueeze1 t) (1 :: s) (fun i => f (tl i)).
Proof.
  intros t s f [H E]. split. cbn. rewrite H; auto.
  intros [|j i] Hi; cbn in Hi; try contradiction. destruct Hi. cbn. auto.
Qed.

Lemma unsqueeze2_reads : forall t n s f k, reads t (n :: s) f -> (exists m a, shp t = m :: a) ->
  exists v, unsqueeze2 t = Ok v /\ reads v (n :: k :: s) (fun i => f (tl2 i)) /\ (shp t = n :: s -> shp v = n :: 1 :: s).
Proof.
  intros t n s f k [H E] (m & a & X). unfold unsqueeze2. rewrite X in *. eexists. split. reflexivity. split.
  - split. cbn. inversion H; subst; repeat constructor; auto.
    intros [|j [|l i]] Hi; cbn in Hi; try tauto. destruct Hi as (A & B & C).
    specialize (E (j :: i) (conj A C)). cbn [shp tl2]. rewrite <- E.
    assert (Q : shrink (m :: 1 :: a) (j :: l :: i) = (if m =? 1 then 0 else j) :: 0 :: shrink a i).
    { destruct m as [|[|m]]; reflexivity. }
    assert (Q' : shrink (m :: a) (j :: i) = (if m =? 1 then 0 else j) :: shrink a i).
    { destruct m as [|[|m]]; reflexivity. }
    rewrite Q, Q'. reflexivity.
  - intros Y. injection Y as -> ->. reflexivity.
Qed.

Lemma total_sum : forall n f, sum_over n f = total n f.
Proof.
  intros n f. unfold sum_over. induction n as [|n IH]. reflexivity.
  rewrite seq_S, map_app, fold_right_app. cbn [map fold_right total plus].
  rewrite <- IH. generalize (map f (seq 0 n)). clear. intros l.
  induction l as [|x l IHl]; cbn. lra. rewrite IHl. lra.
Qed.

Lemma total_ext : forall n f g, (forall k, k < n -> f k = g k) -> total n f = total n g.
Proof. induction n; intros f g H; cbn; auto. rewrite (IHn f g), H by auto. reflexivity. Qed.

Lemma inside_snoc : forall s n i k, inside s i -> k < n -> inside (s ++ [n]) (i ++ [k]).
Proof. induction s; intros n [|j i] k H L; cbn in *; try contradiction; auto. destruct H; auto. Qed.

Lemma inside_app : forall s1 s2 i1 i2, inside s1 i1 -> inside s2 i2 -> inside (s1 ++ s2) (i1 ++ i2).
Proof. induction s1; intros s2 [|j i] i2 H L; cbn in *; try contradiction; auto. destruct H; auto. Qed.

Lemma sum0_holds : forall t s n f, holds t (s ++ [n]) f -> holds (sum0 t) s (fun i => total n (fun k => f (i ++ [k]))).
Proof.
  intros t s n f [H E]. unfold sum0. rewrite H.
  destruct (s ++ [n]) as [|m r] eqn:X. destruct s; discriminate X.
  rewrite <- X. split. cbn. apply removelast_last. cbn. intros i Hi. rewrite last_last, total_sum.
  apply total_ext. intros k L. apply E. rewrite <- X. apply inside_snoc; auto.
Qed.

Lemma transpose21_reads : forall t n m s f a, reads t (n :: m :: s) f -> shp t = n :: m :: a ->
  exists v, transpose21 t = Ok v /\ shp v = m :: n :: a
    /\ reads v (m :: n :: s) (fun i => match i with j :: k :: r => f (k :: j :: r) | _ => 0%R end).
Proof.
  intros t n m s f a [H E] X. unfold transpose21. rewrite X in *. eexists. split. reflexivity. split. reflexivity.
  assert (G : stretches a s).
  { do 2 apply stretches_tail in H. exact H. }
  split. cbn. repeat constructor; auto.
  intros [|j [|l i]] Hi; cbn in Hi; try tauto. destruct Hi as (A & B & C).
  specialize (E (l :: j :: i) (conj B (conj A C))). cbn [shp entry]. rewrite <- E.
  assert (Q : forall m n j l, shrink (m :: n :: a) (j :: l :: i) = (if m =? 1 then 0 else j) :: (if n =? 1 then 0 else l) :: shrink a i).
  { intros [|[|?]] [|[|?]] ? ?; reflexivity. }
  rewrite !Q. reflexivity.
Qed.

Lemma matmul2_reads : forall t u k m p s f g a b, shp t = k :: m :: a -> shp u = p :: k :: b ->
  reads t (k :: m :: s) f -> reads u (p :: k :: s) g ->
  exists v c, matmul2 t u = Ok v /\ shp v = p :: m :: c /\ (a = s \/ b = s -> c = s)
    /\ reads v (p :: m :: s) (fun i => match i with j :: i' :: r => total k (fun l => f (l :: i' :: r) * g (j :: l :: r))%R | _ => 0%R end).
Proof.
  intros t u k m p s f g a b Xt Xu [Ht Et] [Hu Eu]. unfold matmul2. rewrite Xt, Xu in *.
  assert (Ga : stretches a s).
  { do 2 apply stretches_tail in Ht. exact Ht. }
  assert (Gb : stretches b s).
  { do 2 apply stretches_tail in Hu. exact Hu. }
  destruct (bshape_join s a b Ga Gb) as (c & E & G & J & K & P & Q).
  rewrite E. cbn [bind]. rewrite Nat.eqb_refl. eexists. exists c. split. reflexivity. split. reflexivity.
  split. intros [?|?]; auto. split. cbn. repeat constructor; auto.
  intros [|j [|l i]] Hi; cbn in Hi; try tauto. destruct Hi as (A & B & C). cbn [shp entry].
  assert (S2 : forall m n j l i a, shrink (m :: n :: a) (j :: l :: i) = (if m =? 1 then 0 else j) :: (if n =? 1 then 0 else l) :: shrink a i).
  { intros [|[|?]] [|[|?]] ? ? ? ?; reflexivity. }
  assert (N1 : forall n x, x < n -> (if n =? 1 then 0 else x) = x).
  { intros n x L. destruct (n =? 1) eqn:F; auto. apply Nat.eqb_eq in F. lia. }
  rewrite S2, !N1 by auto. rewrite total_sum. apply total_ext. intros q L.
  rewrite !bidx_shrink, J, K by auto.
  specialize (Et (q :: l :: i) (conj L (conj B C))). rewrite S2, !N1 in Et by auto.
  specialize (Eu (j :: q :: i) (conj A (conj L C))). rewrite S2, !N1 in Eu by auto.
  rewrite Et, Eu. reflexivity.
Qed.

Lemma tmatmul_22 : forall t u k m a p q b, shp t = k :: m :: a -> shp u = p :: q :: b -> tmatmul t u = matmul2 t u.
Proof. intros t u k m a p q b E F. unfold tmatmul. rewrite E, F. reflexivity. Qed.

Lemma tmatmul_reads : forall t u k m p s f g a b, shp t = k :: m :: a -> shp u = p :: k :: b ->
  reads t (k :: m :: s) f -> reads u (p :: k :: s) g ->
  exists v c, tmatmul t u = Ok v /\ shp v = p :: m :: c /\ (a = s \/ b = s -> c = s)
    /\ reads v (p :: m :: s) (fun i => match i with j :: i' :: r => total k (fun l => f (l :: i' :: r) * g (j :: l :: r))%R | _ => 0%R end).
Proof. intros. erewrite tmatmul_22 by eauto. eapply matmul2_reads; eauto. Qed.

Lemma squeeze1_reads : forall t s f a, reads t (1 :: s) f -> shp t = 1 :: a ->
  reads (squeeze1 t) s (fun i => f (0 :: i)) /\ shp (squeeze1 t) = a.
Proof.
  intros t s f a [H E] X. unfold squeeze1. rewrite X in *. split; [|reflexivity].
  split. cbn. inversion H; subst; auto. intros i Hi. cbn. rewrite <- E. reflexivity. cbn. split; auto.
Qed.

Lemma corner_reads : forall t n m s f a, reads t (S n :: S m :: s) f -> shp t = S n :: S m :: a ->
  exists v, corner t = Ok v /\ shp v = a /\ reads v s (fun i => f (0 :: 0 :: i)).
Proof.
  intros t n m s f a [H E] X. unfold corner. rewrite X in *. eexists. split. reflexivity. split. reflexivity.
  split. cbn. do 2 apply stretches_tail in H. exact H.
  intros i Hi. cbn [shp entry]. rewrite <- E by (cbn; repeat split; auto; lia).
  destruct n, m; reflexivity.
Qed.

Lemma inside_split : forall i s m, inside (s ++ [m]) i -> exists b k, i = b ++ [k] /\ inside s b /\ k < m.
Proof.
  induction i as [|j i IH]; intros [|q s] m H; cbn in H; try contradiction.
  - destruct H as [L H]. destruct i; [|contradiction]. exists [], j. repeat split; auto.
  - destruct H as [L H]. destruct (IH s m H) as (b & k & -> & A & B). exists (j :: b), k. repeat split; auto.
Qed.

Lemma stretches_app : forall s r, stretches s (s ++ r).
Proof. induction s; intros r; cbn; constructor; auto. Qed.

Lemma shrink_app : forall s i j, inside s i -> shrink s (i ++ j) = i.
Proof.
  induction s as [|n s IH]; intros [|k i] j H; cbn in H; try contradiction; auto. destruct H as [L H].
  cbn [app]. rewrite shrink_cons, IH by auto. destruct (Nat.eqb_spec n 1); f_equal. lia.
Qed.

(** A tensor without the first dimension. *)
Lemma holds_wider : forall t s n f, holds t s f -> reads t (s ++ [n]) (fun i => f (removelast i)).
Proof.
  intros t s n f [E H]. split. rewrite E. apply stretches_app.
  intros i Hi. destruct (inside_split _ _ _ Hi) as (b & k & -> & A & B).
  rewrite E, shrink_app, removelast_last by auto. auto.
Qed.

Lemma sum0_holds' : forall t s n f g, holds t (s ++ [n]) f -> (forall i, inside s i -> total n (fun k => f (i ++ [k])) = g i) ->
  holds (sum0 t) s g.
Proof. intros t s n f g H X. eapply holds_ext. apply (sum0_holds t s n f H). exact X. Qed.

(** What the combination of shapes can end in. *)
Lemma bshape_cases : forall a b, (exists r, bshape a b = Ok r) \/ bshape a b = Raise RuntimeError.
Proof.
  induction a as [|m a IH]; intros b. cbn. eauto. destruct b as [|n b]. cbn; eauto.
  cbn [bshape]. destruct (IH b) as [(r & E)|E]; rewrite E; cbn [bind]; auto.
  destruct (m =? n); eauto. destruct (m =? 1); eauto. destruct (n =? 1); eauto.
Qed.

(** Dimensions greater than 1, shifted against each other by one place. *)
Lemma bshape_shift : forall l d, 2 <= d -> Forall (fun n => 2 <= n) l -> (exists n, In n l /\ n <> d) ->
  bshape l (d :: l) = Raise RuntimeError.
Proof.
  induction l as [|m l IH]; intros d Hd H (n & I & D). contradiction.
  inversion H; subst. cbn [bshape].
  destruct (Nat.eq_dec m d) as [->|N].
  - rewrite IH; auto. destruct I as [->|I]. congruence. exists n. auto.
  - destruct (bshape_cases l (m :: l)) as [(r & E)|E]; rewrite E; cbn [bind]; auto.
    destruct (Nat.eqb_spec m d); [congruence|]. destruct (Nat.eqb_spec m 1); [lia|]. destruct (Nat.eqb_spec d 1); [lia|]. reflexivity.
Qed.

Lemma bshape_comm : forall a b, bshape a b = bshape b a.
Proof.
  induction a as [|m a IH]; intros [|n b]; auto. cbn [bshape]. rewrite IH. destruct (bshape b a); cbn [bind]; auto.
  rewrite (Nat.eqb_sym n m). destruct (Nat.eqb_spec m n); subst; auto.
  destruct (Nat.eqb_spec m 1), (Nat.eqb_spec n 1); subst; auto; congruence.
Qed.

Lemma holds_cut : forall t s f, holds t s f -> shp t = s.
Proof. intros t s f H. apply H. Qed.

Definition diagonal (f : list nat -> R) (i : list nat) : R :=
  match i with j :: i' :: r => if j =? i' then f (i' :: r) else 0%R | _ => 0%R end.

Lemma eye_reads : forall d bs, reads (eye d) (d :: d :: bs) (fun i => match i with j :: k :: _ => if j =? k then 1%R else 0%R | _ => 0%R end).
Proof.
  intros d bs. split. cbn. repeat constructor.
  intros [|j [|k i]] Hi; cbn in Hi; try tauto. destruct Hi as (A & B & _).
  cbn [shp eye entry]. rewrite !shrink_cons. destruct (Nat.eqb_spec d 1); cbn; auto. subst.
  replace j with 0 by lia. replace k with 0 by lia. reflexivity.
Qed.

Lemma construct_diag_vector : forall x d bs f, reads x (d :: bs) f ->
  exists v c, construct_diag x [d] = Ok v /\ shp v = d :: d :: c /\ (shp x = d :: bs -> c = bs)
    /\ reads v (d :: d :: bs) (diagonal f).
Proof.
  intros x d bs f H.
  destruct (lift2_reads Rmult (eye d) (unsqueeze1 x) (d :: d :: bs) _ _ (eye_reads d bs) (unsqueeze1_reads _ _ _ d H)) as (v & E & R & _).
  exists v. assert (X : exists c, shp v = d :: d :: c /\ (shp x = d :: bs -> c = bs)).
  { unfold lift2 in E. destruct (bshape (shp (eye d)) (shp (unsqueeze1 x))) as [r|] eqn:B; [|discriminate E].
    cbn in E. injection E as <-. cbn [shp]. cbn in B. destruct H as [H _].
    destruct (shp x) as [|m a].
    - cbn in B. destruct (d =? 1) eqn:Q; cbn in B.
      + apply Nat.eqb_eq in Q. subst d. injection B as <-. exists []. split; auto. intros; discriminate.
      + injection B as <-. exists []. split; auto. intros; discriminate.
    - assert (Y : m = d \/ m = 1) by (inversion H; auto). cbn in B.
      assert (B' : (if d =? m then Ok (d :: a) else if d =? 1 then Ok (m :: a) else if m =? 1 then Ok (d :: a) else Raise RuntimeError) = Ok (d :: a)).
      { destruct (Nat.eqb_spec d m); auto. destruct (Nat.eqb_spec d 1). destruct Y; congruence. destruct (Nat.eqb_spec m 1); auto. destruct Y; congruence. }
      destruct a as [|m' a'].
      + rewrite B' in B. cbn [bind] in B. assert (r = [d; d]). { destruct (Nat.eqb_spec d 1); congruence. } subst r.
        exists []. split; auto. intros Z; injection Z; auto.
      + rewrite B' in B. cbn [bind] in B. assert (r = d :: d :: m' :: a'). { destruct (Nat.eqb_spec d 1); congruence. } subst r.
        exists (m' :: a'). split; auto. intros Z; injection Z; auto. }
  destruct X as (c & S1 & S2). exists c. split. exact E. split. exact S1. split. exact S2.
  eapply reads_ext. exact R. intros [|j [|k i]] Hi; cbn in Hi; try tauto. cbn.
  destruct (j =? k); ring.
Qed.

Lemma construct_diag_scalar : forall x bs f, reads x bs f ->
  exists v, construct_diag x [] = Ok v /\ shp v = 1 :: 1 :: shp x
    /\ reads v (1 :: 1 :: bs) (fun i => f (tl (tl i))).
Proof.
  intros x bs f H.
  destruct (lift2_reads Rmult (eye 1) (view11 x) (1 :: 1 :: bs) _ _ (eye_reads 1 bs)
              (unsqueeze1_reads _ _ _ 1 (unsqueeze1_reads _ _ _ 1 H))) as (v & E & R & _).
  exists v. split. exact E. split.
  { unfold lift2 in E. cbn in E. injection E as <-. reflexivity. }
  eapply reads_ext. exact R. intros [|j [|k i]] Hi; cbn in Hi; try tauto. cbn.
  replace j with 0 by lia. replace k with 0 by lia. cbn. ring.
Qed.

Lemma make_normal_holds : forall loc scale s f g, reads loc s f -> reads scale s g -> shp loc = s \/ shp scale = s ->
  exists l c, make_normal loc scale = Ok (KNormal l c) /\ holds l s f /\ holds c s g.
Proof.
  intros loc scale s f g [Hl El] [Hc Ec] X. unfold make_normal.
  assert (B : bshape (shp loc) (shp scale) = Ok s).
  { destruct X as [X|X]; rewrite X; apply bshape_exact; auto. }
  rewrite B. cbn [bind]. eexists. eexists. split. reflexivity.
  split; (split; [reflexivity|]); cbn; intros i Hi; rewrite bidx_shrink; auto.
Qed.

Lemma make_mvn_holds : forall loc cov k bs f g c a, shp loc = k :: a -> shp cov = k :: k :: c ->
  reads loc (k :: bs) f -> reads cov (k :: k :: bs) g -> a = bs \/ c = bs ->
  exists l v, make_mvn loc cov = Ok (KMultivariate l v) /\ holds l (k :: bs) f /\ holds v (k :: k :: bs) g.
Proof.
  intros loc cov k bs f g c a Sl Sc [Hl El] [Hc Ec] X. unfold make_mvn. rewrite Sl, Sc in *.
  pose proof (stretches_tail _ _ _ _ Hl) as Ha. pose proof (stretches_tail _ _ _ _ (stretches_tail _ _ _ _ Hc)) as Hb.
  assert (B : bshape a c = Ok bs). { destruct X as [->| ->]; apply bshape_exact; auto. }
  rewrite B. cbn [bind]. rewrite Nat.eqb_refl. cbn [andb]. eexists. eexists. split. reflexivity.
  assert (N1 : forall x, x < k -> (if k =? 1 then 0 else x) = x).
  { intros x L. destruct (Nat.eqb_spec k 1); auto. lia. }
  split; (split; [reflexivity|]); cbn [entry].
  - intros [|j i] Hi; cbn in Hi; try tauto. destruct Hi as [L Hi].
    specialize (El (j :: i) (conj L Hi)). rewrite shrink_cons, N1 in El by auto. rewrite bidx_shrink. exact El.
  - intros [|j [|q i]] Hi; cbn in Hi; try tauto. destruct Hi as (L & M & Hi).
    specialize (Ec (j :: q :: i) (conj L (conj M Hi))). rewrite !shrink_cons, !N1 in Ec by auto. rewrite bidx_shrink. exact Ec.
Qed.

Lemma total_zero : forall n f, (forall k, k < n -> f k = 0%R) -> total n f = 0%R.
Proof. induction n; intros f H; cbn; auto. rewrite IHn, H by auto. ring. Qed.

Lemma total_pick : forall n j g v, j < n -> total n (fun l => g l * (if j =? l then v l else 0))%R = (g j * v j)%R.
Proof.
  induction n as [|n IH]; intros j g v L. lia. cbn [total].
  destruct (Nat.eq_dec j n) as [->|N].
  - rewrite Nat.eqb_refl. rewrite total_zero. ring. intros k Lk. destruct (Nat.eqb_spec n k). lia. ring.
  - rewrite IH by lia. destruct (Nat.eqb_spec j n). lia. ring.
Qed.

Lemma total_pick' : forall n i g v, i < n -> total n (fun l => (if l =? i then v else 0) * g l)%R = (v * g i)%R.
Proof.
  intros n i g v L. rewrite (total_ext n _ (fun l => g l * (if i =? l then v else 0))%R).
  - rewrite (total_pick n i g (fun _ => v) L). ring.
  - intros k _. rewrite (Nat.eqb_sym k i). ring.
Qed.
