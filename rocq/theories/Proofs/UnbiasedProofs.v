(** Lemmas about laws and averages. *)
From Coq Require Import Reals List Bool Arith Lia Lra.
From Coquelicot Require Import Coquelicot.
From Verif.Spec Require Import WeightsSpec UnbiasedSpec.
Import ListNotations.
Local Open Scope nat_scope.

Section Laws.
  Context {A : Type} (L : law A) (HL : law_ok L).
  Lemma averages_ext f g m : (forall a, supp L a -> f a = g a) -> averages L f m -> averages L g m.
  Proof. intros H [D E]. destruct (law_ext _ HL f g H D) as [D' E']. split; [exact D'|congruence]. Qed.
  Lemma averages_const c : averages L (fun _ => c) c.
  Proof. apply (law_const _ HL). Qed.
  Lemma averages_lin a b f g x y : averages L f x -> averages L g y -> averages L (fun z => a * f z + b * g z)%R (a * x + b * y)%R.
  Proof. intros [D1 E1] [D2 E2]. destruct (law_lin _ HL a b f g D1 D2) as [D E]. split; [exact D|congruence]. Qed.
  Lemma averages_scal a f x : averages L f x -> averages L (fun z => a * f z)%R (a * x)%R.
  Proof.
    intros H. replace (a * x)%R with (a * x + 0 * 0)%R by ring. apply averages_ext with (f := fun z => (a * f z + 0 * 0)%R); [intros; ring|].
    exact (averages_lin a 0 f (fun _ => 0%R) x 0%R H (averages_const 0)).
  Qed.
  Lemma averages_sum {B} (l : list B) (f : B -> A -> R) m : (forall b, In b l -> averages L (f b) (m b)) ->
    averages L (fun z => Rsum (map (fun b => f b z) l)) (Rsum (map m l)).
  Proof.
    induction l as [|b l IH]; intros H; [exact (averages_const 0)|]. unfold Rsum in *. cbn [map fold_right].
    apply averages_ext with (f := fun z => (1 * f b z + 1 * fold_right Rplus 0 (map (fun b => f b z) l))%R); [intros; ring|].
    replace (m b + fold_right Rplus 0 (map m l))%R with (1 * m b + 1 * fold_right Rplus 0 (map m l))%R by ring.
    apply averages_lin; [apply H; now left|]. apply IH. intros b' Hb. apply H. now right.
  Qed.
  Lemma averages_unique f x y : averages L f x -> averages L f y -> x = y.
  Proof. intros [_ <-] [_ E]. exact E. Qed.
End Laws.

Lemma uniform_is f m : @is_RInt R_NormedModule f 0%R 1%R m <-> averages uniform f m.
Proof.
  split.
  - intros H. split; [now exists m|]. now apply (@is_RInt_unique R_CompleteNormedModule).
  - intros [D <-]. now apply (@RInt_correct R_CompleteNormedModule).
Qed.

Lemma uniform_ok : law_ok uniform.
Proof.
  constructor.
  - intros f g H D. apply uniform_is. cbn [uniform supp dom mean] in *.
    apply (@is_RInt_ext R_NormedModule f).
    + intros x. rewrite Rmin_left, Rmax_right by lra. apply H.
    + now apply (@RInt_correct R_CompleteNormedModule).
  - intros c. apply uniform_is. pose proof (@is_RInt_const R_NormedModule 0%R 1%R c) as H.
    assert (E : @scal R_Ring R_NormedModule (1 - 0)%R c = c) by (unfold scal; cbn; unfold mult; cbn; ring). now rewrite E in H.
  - intros a b f g D1 D2. apply uniform_is. apply (@is_RInt_plus R_NormedModule (fun x => (a * f x)%R) (fun x => (b * g x)%R)).
    + apply (@is_RInt_scal R_NormedModule). now apply (@RInt_correct R_CompleteNormedModule).
    + apply (@is_RInt_scal R_NormedModule). now apply (@RInt_correct R_CompleteNormedModule).
Qed.

Lemma finite_ok {A} (l : list (A * R)) : Rsum (map snd l) = 1%R -> law_ok (finite l).
Proof.
  intros H. constructor; cbn [finite supp dom mean].
  - intros f g E _. split; [exact I|]. f_equal. apply map_ext_in. intros [a p] Hin. cbn. rewrite E by (now exists p). reflexivity.
  - intros c. split; [exact I|]. transitivity (c * Rsum (map snd l))%R; [|rewrite H; ring].
    clear H. unfold Rsum. induction l as [|q l IH]; cbn [map fold_right]; [ring|]. rewrite IH. ring.
  - intros a b f g _ _. split; [exact I|]. clear H. unfold Rsum. induction l as [|q l IH]; cbn [map fold_right]; [ring|]. rewrite IH. ring.
Qed.

(** Functions of draws, and independent draws. *)
Lemma image_ok {A B} (h : A -> B) (L : law A) : law_ok L -> law_ok (image h L).
Proof.
  intros HL. constructor; cbn [image supp dom mean].
  - intros f g E D. apply (law_ext _ HL (fun a => f (h a))); [|exact D]. intros a Ha. apply E. now exists a.
  - intros c. apply (law_const _ HL).
  - intros a b f g D1 D2. exact (law_lin _ HL a b (fun x => f (h x)) (fun x => g (h x)) D1 D2).
Qed.
Lemma averages_image {A B} (h : A -> B) (L : law A) f m : averages L (fun a => f (h a)) m -> averages (image h L) f m.
Proof. exact (fun H => H). Qed.

Section Independent.
  Context {A : Type} (L : law A) (HL : law_ok L) (base : nat -> A) (Hbase : forall k, supp L (base k)).
  Lemma supp_independent b u : supp (independent L b base) u <-> forall k, supp L (u k).
  Proof. destruct b; reflexivity. Qed.
  Lemma supp_set u k a : (forall i, supp L (u i)) -> supp L a -> forall i, supp L (set_at u k a i).
  Proof. intros H Ha i. unfold set_at. destruct (i =? k); [exact Ha|apply H]. Qed.
  Lemma independent_ok b : law_ok (independent L b base).
  Proof.
    induction b as [|b IH].
    - constructor; cbn [independent supp dom mean].
      + intros f g E _. split; [exact I|]. symmetry. now apply E.
      + intros c. now split.
      + intros. now split.
    - constructor; cbn [independent supp dom mean].
      + intros f g E [D1 D2].
        assert (In : forall u, supp (independent L b base) u -> averages L (fun a => g (set_at u b a)) (mean L (fun a => f (set_at u b a)))).
        { intros u Hu. apply (law_ext _ HL (fun a => f (set_at u b a))); [|now apply D2]. intros a Ha. apply E. apply supp_set; [exact (proj1 (supp_independent b u) Hu)|exact Ha]. }
        destruct (law_ext _ IH (fun u => mean L (fun a => f (set_at u b a))) (fun u => mean L (fun a => g (set_at u b a)))) as [E1 E2].
        * intros u Hu. symmetry. apply (In u Hu).
        * exact D1.
        * split; [split; [exact E1|intros u Hu; apply (In u Hu)]|exact E2].
      + intros c.
        destruct (law_ext _ IH (fun _ => c) (fun u => mean L (fun _ => c))) as [E1 E2].
        * intros u Hu. symmetry. apply (law_const _ HL).
        * apply (law_const _ IH).
        * split; [split; [exact E1|intros; apply (law_const _ HL)]|]. rewrite E2. apply (law_const _ IH).
      + intros x y f g [D1 D2] [D3 D4].
        assert (In : forall u, supp (independent L b base) u -> averages L (fun a => x * f (set_at u b a) + y * g (set_at u b a))%R
          (x * mean L (fun a => f (set_at u b a)) + y * mean L (fun a => g (set_at u b a)))%R).
        { intros u Hu. apply (law_lin _ HL x y (fun a => f (set_at u b a)) (fun a => g (set_at u b a))); [now apply D2|now apply D4]. }
        destruct (law_lin _ IH x y _ _ D1 D3) as [E1 E2].
        destruct (law_ext _ IH (fun u => x * mean L (fun a => f (set_at u b a)) + y * mean L (fun a => g (set_at u b a)))%R
          (fun u => mean L (fun a => x * f (set_at u b a) + y * g (set_at u b a))%R)) as [E3 E4].
        * intros u Hu. symmetry. apply (In u Hu).
        * exact E1.
        * split; [split; [exact E3|intros u Hu; apply (In u Hu)]|]. rewrite E4. exact E2.
  Qed.
  (** Each of the positions follows the law. *)
  Lemma independent_one b k g m : averages L g m -> k < b -> averages (independent L b base) (fun u => g (u k)) m.
  Proof.
    intros Hg. induction b as [|b IH]; [lia|]. intros Hk. pose proof (independent_ok b) as OK.
    assert (In : forall u, averages L (fun a => g (set_at u b a k)) (if k =? b then m else g (u k))).
    { intros u. unfold set_at. destruct (k =? b); [exact Hg|now apply averages_const]. }
    destruct (averages_ext _ OK (fun u => if k =? b then m else g (u k)) (fun u => mean L (fun a => g (set_at u b a k))) m) as [E1 E2].
    - intros u _. symmetry. apply (In u).
    - destruct (Nat.eqb_spec k b); [now apply averages_const|]. apply IH. lia.
    - split; [|exact E2]. cbn [independent dom]. split; [exact E1|]. intros u _. apply (In u).
  Qed.
End Independent.
