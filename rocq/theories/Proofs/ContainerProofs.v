From Coq Require Import String Ascii List ZArith Bool Lia.
From Coq Require Import DecimalString DecimalNat.
From Coq Require DecimalFacts.
From Verif.Model Require Import Base Container.
From Verif.Spec Require Import ContainerSpec.
Import ListNotations.
Open Scope string_scope.
Open Scope list_scope.

(** * Ordered dictionaries *)
Section OD.
  Context {V : Type}.
  Implicit Types d : odict V.

  Lemma od_get_set k k' v d :
    od_get k (od_set k' v d) = if string_dec k k' then Some v else od_get k d.
  Proof.
    induction d as [|[q w] r IH]; simpl.
    - destruct (String.eqb_spec k k'); destruct (string_dec k k'); congruence.
    - destruct (String.eqb_spec k' q) as [->|Hne]; simpl.
      + destruct (String.eqb_spec k q); destruct (string_dec k q); congruence.
      + destruct (String.eqb_spec k q) as [->|].
        * destruct (string_dec q k'); congruence.
        * exact IH.
  Qed.

  Lemma od_get_None k d : od_get k d = None <-> ~ In k (od_keys d).
  Proof.
    induction d as [|[q w] r IH]; simpl.
    - tauto.
    - destruct (String.eqb_spec k q) as [->|Hne].
      + split; [discriminate|]. intros H; exfalso; apply H; now left.
      + rewrite IH. intuition congruence.
  Qed.

  Lemma od_get_Some_In k v d : od_get k d = Some v -> In (k, v) d.
  Proof.
    induction d as [|[q w] r IH]; simpl; [discriminate|].
    destruct (String.eqb_spec k q) as [->|Hne]; intros H.
    - injection H as ->. now left.
    - right; auto.
  Qed.

  Lemma od_get_In k v d : NoDup (od_keys d) -> In (k, v) d -> od_get k d = Some v.
  Proof.
    induction d as [|[q w] r IH]; simpl; [tauto|].
    intros Hn [H|H]; inversion Hn as [|a b Hnot Hnd]; subst.
    - injection H as -> ->. now rewrite String.eqb_refl.
    - destruct (String.eqb_spec k q) as [->|Hne].
      + exfalso; apply Hnot. now apply (in_map fst) in H.
      + auto.
  Qed.

  Lemma od_mem_get k d : od_mem k d = true <-> od_get k d <> None.
  Proof. unfold od_mem. destruct (od_get k d); split; congruence. Qed.

  Lemma od_mem_In k d : od_mem k d = true <-> In k (od_keys d).
  Proof.
    rewrite od_mem_get. rewrite od_get_None. destruct (in_dec string_dec k (od_keys d)); tauto.
  Qed.

  Lemma od_keys_set k v d :
    od_keys (od_set k v d) = if in_dec string_dec k (od_keys d) then od_keys d else od_keys d ++ [k].
  Proof.
    induction d as [|[q w] r IH].
    - reflexivity.
    - simpl od_set. destruct (String.eqb_spec k q) as [->|Hne].
      + simpl. destruct (string_dec q q); [reflexivity|congruence].
      + simpl. rewrite IH.
        destruct (in_dec string_dec k (od_keys r)); destruct (string_dec q k); try congruence;
          simpl; try congruence; reflexivity.
  Qed.

  Lemma NoDup_od_set k v d : NoDup (od_keys d) -> NoDup (od_keys (od_set k v d)).
  Proof.
    intros H. rewrite od_keys_set. destruct (in_dec _ _ _); [assumption|].
    apply NoDup_Add with (a := k) (l := od_keys d); [|split; assumption].
    rewrite <- (app_nil_r (od_keys d)) at 1. apply Add_app.
  Qed.

  Lemma od_keys_del k d : forall x, In x (od_keys (od_del k d)) -> In x (od_keys d).
  Proof.
    induction d as [|[q w] r IH]; simpl; [tauto|]. intros x.
    destruct (String.eqb_spec k q); simpl; intuition.
  Qed.

  Lemma NoDup_od_del k d : NoDup (od_keys d) -> NoDup (od_keys (od_del k d)).
  Proof.
    induction d as [|[q w] r IH]; simpl; [auto|]. intros H; inversion H; subst.
    destruct (String.eqb_spec k q); simpl; [assumption|].
    constructor; auto. intros Hc. apply od_keys_del in Hc. tauto.
  Qed.

  Lemma od_get_del k k' d : NoDup (od_keys d) ->
    od_get k (od_del k' d) = if string_dec k k' then None else od_get k d.
  Proof.
    induction d as [|[q w] r IH]; simpl; intros Hn.
    - now destruct (string_dec k k').
    - inversion Hn as [|a b Hnot Hnd]; subst.
      destruct (String.eqb_spec k' q) as [->|Hne].
      + destruct (string_dec k q) as [->|].
        * now apply od_get_None.
        * destruct (String.eqb_spec k q); congruence.
      + simpl. rewrite IH by assumption.
        destruct (String.eqb_spec k q) as [->|]; [|reflexivity].
        destruct (string_dec q k'); congruence.
  Qed.

  Lemma od_set_fresh k v d : ~ In k (od_keys d) -> od_set k v d = d ++ [(k, v)].
  Proof.
    induction d as [|[q w] r IH]; simpl; [reflexivity|]. intros H.
    destruct (String.eqb_spec k q) as [->|]; [exfalso; auto|]. f_equal. auto.
  Qed.

  Lemma od_del_head k v d : od_del k ((k, v) :: d) = d.
  Proof. simpl. now rewrite String.eqb_refl. Qed.

  Lemma length_od_set k v d : length (od_set k v d) = if od_mem k d then length d else S (length d).
  Proof.
    unfold od_mem. induction d as [|[q w] r IH]; simpl; [reflexivity|].
    destruct (String.eqb_spec k q); simpl; [reflexivity|]. rewrite IH. now destruct (od_get k r).
  Qed.
End OD.

(** * Bounded recordings *)
Section Window.
  Context {T : Type}.

  Lemma skipn_tl (A : Type) n (l : list A) : tl (skipn n l) = skipn (S n) l.
  Proof.
    revert l. induction n; intros [|a l]; try reflexivity. simpl. rewrite IHn. destruct l; reflexivity.
  Qed.

  Lemma skipn_skipn_ (A : Type) m n (l : list A) : skipn m (skipn n l) = skipn (m + n) l.
  Proof.
    revert l. induction n; intros l; [now rewrite Nat.add_0_r|].
    rewrite Nat.add_succ_r. destruct l; [now rewrite !skipn_nil|]. simpl. apply IHn.
  Qed.

  Lemma length_newest {A} cap (l : list A) :
    length (newest cap l) = match cap with None => length l | Some k => Nat.min (length l) k end.
  Proof. destruct cap; simpl; [|reflexivity]. rewrite skipn_length. lia. Qed.

  Lemma dq_append_newest (d : dq T) h x :
    dq_items d = newest (dq_max d) h ->
    dq_append d x = Dq (dq_max d) (newest (dq_max d) (h ++ [x])).
  Proof.
    destruct d as [m items]; simpl. intros ->. unfold dq_append; simpl.
    destruct m as [m|]; [|reflexivity].
    set (l := newest (Some m) h). rewrite app_length; simpl.
    assert (Hl : length l = Nat.min (length h) m) by (unfold l; rewrite (length_newest (Some m) h); reflexivity).
    destruct (Nat.leb_spec (length l + 1) m) as [Hle|Hgt]; f_equal.
    - unfold l; simpl. rewrite app_length; simpl.
      replace (length h - m) with 0 by lia. replace (length h + 1 - m) with 0 by lia. reflexivity.
    - unfold l in *; simpl in *. rewrite app_length; simpl.
      destruct m as [|m].
      + rewrite Nat.sub_0_r, skipn_all2 by lia. simpl. rewrite skipn_all2; [reflexivity|].
        rewrite app_length; simpl; lia.
      + assert (length h >= S m) by lia.
        replace (length h + 1 - S m) with (S (length h - S m)) by lia.
        rewrite <- skipn_tl. f_equal. rewrite skipn_app.
        replace (length h - S m - length h) with 0 by lia. reflexivity.
  Qed.

  Lemma newest_app_newest {A} cap (l r : list A) : newest cap (newest cap l ++ r) = newest cap (l ++ r).
  Proof.
    destruct cap as [k|]; simpl; [|reflexivity].
    destruct (Nat.le_gt_cases (length l) k) as [Hle|Hgt].
    - replace (length l - k) with 0 by lia. reflexivity.
    - assert (E : length (skipn (length l - k) l) = k) by (rewrite skipn_length; lia).
      rewrite !app_length, E, (skipn_app _ l r), (skipn_app _ (skipn (length l - k) l) r), E, skipn_skipn_.
      replace (k + length r - k + (length l - k)) with (length l + length r - k) by lia.
      do 2 f_equal. lia.
  Qed.

  Lemma dq_extend_newest (d : dq T) h xs :
    dq_items d = newest (dq_max d) h ->
    dq_extend d xs = Dq (dq_max d) (newest (dq_max d) (h ++ xs)).
  Proof.
    revert d h. induction xs as [|x xs IH]; intros d h H; simpl.
    - rewrite app_nil_r, <- H. now destruct d.
    - rewrite (dq_append_newest d h x H).
      rewrite (IH _ (h ++ [x])) by reflexivity. simpl. now rewrite <- app_assoc.
  Qed.

  Definition setting_capacity (m : maxlen_arg) : option (option nat) :=
    match m with
    | MLNone => Some None
    | MLBool b => Some (if b then None else Some 1)
    | MLInt z => if (0 <=? z)%Z then Some (Some (Z.to_nat z)) else None
    end.

  Lemma make_dequeue_capacity m :
    make_dequeue (T := T) m =
    match setting_capacity m with Some cap => Ok (Dq cap []) | None => Raise ValueError end.
  Proof.
    destruct m as [|[]|z]; simpl; try reflexivity.
    destruct (Z.ltb_spec z 0); destruct (Z.leb_spec 0 z); try lia; reflexivity.
  Qed.
End Window.

(** * Strings *)

Lemma append_nil_r s : (s ++ "")%string = s.
Proof. induction s; simpl; congruence. Qed.

Lemma str_app_assoc (a b c : string) : ((a ++ b) ++ c = a ++ b ++ c)%string.
Proof. induction a; simpl; congruence. Qed.

Lemma prefix_spec p s : prefix p s = true <-> exists b, s = (p ++ b)%string.
Proof.
  revert s. induction p as [|c p IH]; intros s; simpl.
  - split; [intros _; now exists s | destruct s; reflexivity].
  - destruct s as [|d s]; simpl.
    + split; [discriminate|]. intros [b H]; discriminate.
    + destruct (ascii_dec c d) as [->|Hne].
      * rewrite IH. split; intros [b H]; exists b; congruence.
      * split; [discriminate|]. intros [b H]; congruence.
Qed.

Lemma str_contains_spec sub s : str_contains sub s = true <-> occurs sub s.
Proof.
  unfold occurs. induction s as [|c s IH]; cbn [str_contains].
  - rewrite orb_false_r, prefix_spec. split.
    + intros [b H]. exists "", b. exact H.
    + intros (a & b & H). destruct a; [now exists b|discriminate].
  - rewrite orb_true_iff, prefix_spec, IH. split.
    + intros [[b H]|(a & b & H)]; [exists "", b; exact H|exists (String c a), b; simpl; congruence].
    + intros (a & b & H). destruct a as [|d a]; [left; now exists b|].
      right. exists a, b. simpl in H; congruence.
Qed.

Lemma str_replace_none old new s :
  old <> "" -> ~ occurs old s -> str_replace old new s = s.
Proof.
  intros Hold. unfold str_replace. induction s as [|c s IH]; cbn [str_replace_go]; [reflexivity|].
  intros Hno. destruct (prefix old (String c s)) eqn:E.
  - exfalso; apply Hno. apply prefix_spec in E. destruct E as [b E]. exists "", b; exact E.
  - f_equal. apply IH. intros (a & b & H). apply Hno. exists (String c a), b. simpl; congruence.
Qed.

Lemma length_str_replace_le old skip s :
  String.length (str_replace_go old "" skip s) <= String.length s.
Proof.
  revert skip. induction s as [|c s IH]; intros skip; cbn [str_replace_go]; [simpl; lia|].
  destruct skip as [|k].
  - destruct (prefix old (String c s)); cbn [append String.length].
    + specialize (IH (String.length old - 1)). lia.
    + specialize (IH 0). lia.
  - cbn [String.length]. specialize (IH k). lia.
Qed.

Lemma str_replace_fix_iff old s :
  old <> "" -> (str_replace old "" s = s <-> ~ occurs old s).
Proof.
  intros Hold. split; [|now apply str_replace_none].
  unfold str_replace. induction s as [|c s IH].
  - intros _ (a & b & H). destruct a; [|discriminate]. destruct old; [congruence|discriminate].
  - cbn [str_replace_go]. destruct (prefix old (String c s)) eqn:E.
    + intros H. apply (f_equal String.length) in H. simpl in H.
      pose proof (length_str_replace_le old (String.length old - 1) s). lia.
    + intros H. injection H as H. specialize (IH H).
      intros (a & b & Hab). destruct a as [|d a].
      * assert (prefix old (String c s) = true) by (apply prefix_spec; now exists b). congruence.
      * apply IH. exists a, b. simpl in Hab; congruence.
Qed.

(** Strings all of whose characters satisfy a boolean test. *)
Fixpoint str_forall (f : ascii -> bool) (s : string) : bool :=
  match s with EmptyString => true | String c s' => f c && str_forall f s' end.

Lemma str_replace_skip d r :
  str_forall (fun c => negb (Ascii.eqb c "t"%char)) d = true ->
  str_replace "tensor_" "" (d ++ r) = (d ++ str_replace "tensor_" "" r)%string.
Proof.
  unfold str_replace. induction d as [|c d IH]; [reflexivity|].
  cbn [str_forall append str_replace_go prefix]. rewrite andb_true_iff, negb_true_iff. intros [Hc Hd].
  destruct (ascii_dec "t" c) as [<-|Hne]; [discriminate|].
  f_equal. apply IH, Hd.
Qed.

Lemma split_once_sep d r :
  str_forall (fun c => negb (Ascii.eqb c "_"%char)) d = true ->
  str_split_once "__" (d ++ "__" ++ r) = Some (d, r).
Proof.
  assert (H0 : str_split_once "__" ("__" ++ r) = Some ("", r)) by (destruct r; reflexivity).
  revert H0. generalize ("__" ++ r)%string as q. intros q H0.
  induction d as [|c d IH]; [intros _; exact H0|].
  cbn [append str_forall]. rewrite andb_true_iff, negb_true_iff. intros [Hc Hd].
  cbn [str_split_once prefix]. destruct (ascii_dec "_" c) as [<-|Hne]; [discriminate|].
  now rewrite (IH Hd).
Qed.

Lemma split_once_step c s :
  prefix "__" (String c s) = false ->
  str_split_once "__" (String c s)
  = match str_split_once "__" s with Some (a, b) => Some (String c a, b) | None => None end.
Proof. intros H. cbn [str_split_once]. now rewrite H. Qed.

Lemma split_char_none c d :
  str_forall (fun x => negb (Ascii.eqb x c)) d = true -> str_split_char c d = [d].
Proof.
  induction d as [|x d IH]; [reflexivity|].
  cbn [str_forall str_split_char]. rewrite andb_true_iff, negb_true_iff. intros [Hc Hd].
  rewrite Ascii.eqb_sym, Hc, (IH Hd). reflexivity.
Qed.

(** decimal digits *)
Definition is_digit (c : ascii) : bool :=
  existsb (Ascii.eqb c) ["0";"1";"2";"3";"4";"5";"6";"7";"8";"9"]%char.

Lemma digits_of_uint u : str_forall is_digit (NilEmpty.string_of_uint u) = true.
Proof. induction u; simpl; auto. Qed.

Lemma str_forall_impl f g s :
  (forall c, f c = true -> g c = true) -> str_forall f s = true -> str_forall g s = true.
Proof.
  intros H. induction s; simpl; [auto|]. rewrite !andb_true_iff. intuition.
Qed.

Lemma is_digit_neq c x : is_digit c = true -> is_digit x = false -> negb (Ascii.eqb c x) = true.
Proof.
  intros H1 H2. apply negb_true_iff, Ascii.eqb_neq. intros ->. congruence.
Qed.

Lemma str_of_nat_cons n : exists c s, str_of_nat n = String c s /\ is_digit c = true.
Proof.
  unfold str_of_nat.
  assert (Hn : Nat.to_uint n <> Decimal.Nil).
  { rewrite <- (DecimalNat.Unsigned.of_to n), DecimalNat.Unsigned.to_of. apply DecimalFacts.unorm_nonnil. }
  destruct (Nat.to_uint n) eqn:E; try congruence;
    eexists _, _; (split; [reflexivity|]); reflexivity.
Qed.

Lemma int_of_str_of_nat n : int_of_str (str_of_nat n) = Some (Z.of_nat n).
Proof.
  destruct (str_of_nat_cons n) as (c & s & E & Hc).
  assert (H : NilEmpty.uint_of_string (str_of_nat n) = Some (Nat.to_uint n))
    by (unfold str_of_nat; apply NilEmpty.usu).
  rewrite E in *. unfold int_of_str.
  destruct (Ascii.eqb_spec c "-"); [subst; discriminate|].
  destruct (Ascii.eqb_spec c "+"); [subst; discriminate|].
  rewrite H. simpl. now rewrite DecimalNat.Unsigned.of_to.
Qed.

Lemma str_of_nat_not_None n : String.eqb (str_of_nat n) "None" = false.
Proof.
  destruct (str_of_nat_cons n) as (c & s & E & Hc). rewrite E.
  apply String.eqb_neq. intros H. injection H as -> _. discriminate.
Qed.

Lemma maxlen_str_no m x :
  is_digit x = false -> str_forall (fun c => negb (Ascii.eqb c x)) "None" = true ->
  str_forall (fun c => negb (Ascii.eqb c x)) (maxlen_str m) = true.
Proof.
  intros Hx HN. destruct m as [k|]; [|exact HN]. simpl.
  eapply str_forall_impl; [|apply digits_of_uint]. intros c Hc. now apply is_digit_neq.
Qed.

Lemma maxlen_str_cons m : exists c s, maxlen_str m = String c s /\ c <> "_"%char.
Proof.
  destruct m as [k|]; simpl.
  - destruct (str_of_nat_cons k) as (c & s & E & Hc). exists c, s. split; [exact E|].
    intros ->. discriminate.
  - eexists _, _. split; [reflexivity|discriminate].
Qed.

(** * The key codec *)

Lemma tuple_key_decode n :
  str_split_once "__" (str_replace "tensor_" "" (tuple_key n)) = Some ("tuple", str_replace "tensor_" "" n).
Proof.
  change (str_replace "tensor_" "" (tuple_key n)) with ("tuple" ++ "__" ++ str_replace "tensor_" "" n)%string.
  now apply split_once_sep.
Qed.

Lemma split_deque m r :
  str_split_once "__" ("deque_" ++ maxlen_str m ++ "__" ++ r) = Some ("deque_" ++ maxlen_str m, r)%string.
Proof.
  destruct (maxlen_str_cons m) as (c & s & Em & Hc).
  pose proof (split_once_sep (maxlen_str m) r) as H.
  specialize (H ltac:(apply maxlen_str_no; reflexivity)).
  change ("deque_" ++ maxlen_str m ++ "__" ++ r)%string
    with (String "d" (String "e" (String "q" (String "u" (String "e" (String "_"
           (maxlen_str m ++ "__" ++ r)))))))%string.
  do 5 (rewrite split_once_step by reflexivity).
  rewrite split_once_step.
  - rewrite H. reflexivity.
  - rewrite Em. cbn [prefix append]. destruct (ascii_dec "_" "_"); [|reflexivity].
    destruct (ascii_dec "_" c); [congruence|reflexivity].
Qed.

Lemma deque_key_decode m n :
  str_split_once "__" (str_replace "tensor_" "" (deque_key m n))
  = Some ("deque_" ++ maxlen_str m, str_replace "tensor_" "" n)%string.
Proof.
  unfold deque_key.
  assert (E : str_replace "tensor_" "" ("tensor_" ++ ("deque_" ++ maxlen_str m) ++ "__" ++ n)
              = ("deque_" ++ maxlen_str m ++ "__" ++ str_replace "tensor_" "" n)%string).
  { rewrite str_app_assoc.
    change (str_replace "tensor_" "" ("tensor_" ++ "deque_" ++ maxlen_str m ++ "__" ++ n))
      with ("deque_" ++ str_replace "tensor_" "" (maxlen_str m ++ "__" ++ n))%string.
    rewrite str_replace_skip by (apply maxlen_str_no; reflexivity).
    reflexivity. }
  rewrite E. apply split_deque.
Qed.

Lemma tuple_key_inj n n' : tuple_key n = tuple_key n' -> n = n'.
Proof. unfold tuple_key. simpl. congruence. Qed.

Lemma deque_key_inj m m' n n' : deque_key m n = deque_key m' n' -> n = n'.
Proof.
  unfold deque_key. rewrite !str_app_assoc. intros H.
  apply (f_equal (fun s => str_split_once "__" (str_drop 7 s))) in H.
  change (str_split_once "__" ("deque_" ++ maxlen_str m ++ "__" ++ n)
          = str_split_once "__" ("deque_" ++ maxlen_str m' ++ "__" ++ n')) in H.
  rewrite !split_deque in H. congruence.
Qed.

Lemma tuple_deque_key_neq n m n' : tuple_key n <> deque_key m n'.
Proof. unfold tuple_key, deque_key. simpl. congruence. Qed.

Lemma load_filter_tuple n : load_filter (tuple_key n) = true.
Proof.
  unfold load_filter. apply orb_true_iff. left. apply str_contains_spec.
  exists "", ("__" ++ n)%string. reflexivity.
Qed.

Lemma load_filter_deque m n : load_filter (deque_key m n) = true.
Proof.
  unfold load_filter. apply orb_true_iff. right. apply str_contains_spec.
  exists "", ("_" ++ maxlen_str m ++ "__" ++ n)%string. unfold deque_key.
  rewrite str_app_assoc. reflexivity.
Qed.

Section RoundTrip.
  Context {T : Type}.
  Variable shape : T -> list nat.
  Implicit Types (c t : container T) (sd : odict (list T)).

  Lemma load_entry_tuple c n v :
    load_entry c (tuple_key n) v
    = Ok (Cont (od_set (str_replace "tensor_" "" n) v (c_tuples c)) (c_deques c)).
  Proof. unfold load_entry. rewrite tuple_key_decode. reflexivity. Qed.

  Lemma split_char_deque m :
    str_split_char "_" ("deque_" ++ maxlen_str m) = ["deque"; maxlen_str m].
  Proof.
    change (str_split_char "_" ("deque_" ++ maxlen_str m))
      with (match str_split_char "_" ("_" ++ maxlen_str m) with
            | [] => ["deque"] | w :: ws => ("deque" ++ w)%string :: ws end).
    change (str_split_char "_" ("_" ++ maxlen_str m))
      with ("" :: str_split_char "_" (maxlen_str m)).
    rewrite split_char_none by (apply maxlen_str_no; reflexivity). reflexivity.
  Qed.

  Lemma load_entry_deque c m n v :
    load_entry c (deque_key m n) v
    = Ok (Cont (c_tuples c) (od_set (str_replace "tensor_" "" n) (Dq m (newest m v)) (c_deques c))).
  Proof.
    unfold load_entry. rewrite deque_key_decode.
    replace (String.eqb ("deque_" ++ maxlen_str m) "tuple") with false by reflexivity.
    replace (prefix "deque" ("deque_" ++ maxlen_str m)) with true
      by (symmetry; apply prefix_spec; eexists; reflexivity).
    rewrite split_char_deque.
    assert (Hext : dq_extend (Dq m []) v = Dq m (newest m v)).
    { rewrite (dq_extend_newest (Dq m []) []); [reflexivity|]. destruct m; reflexivity. }
    destruct m as [k|]; simpl maxlen_str.
    - rewrite str_of_nat_not_None, int_of_str_of_nat. unfold make_deque, make_dequeue.
      replace (Z.of_nat k <? 0)%Z with false by (symmetry; apply Z.ltb_ge; lia).
      simpl bind. rewrite Nat2Z.id, Hext. reflexivity.
    - simpl. unfold make_deque; simpl. rewrite Hext. reflexivity.
  Qed.

  Definition entries_t (l : odict (list T)) : odict (list T) := map (fun kv => (tuple_key (fst kv), snd kv)) l.
  Definition entries_d (l : odict (dq T)) : odict (list T) :=
    map (fun kv => (deque_key (dq_max (snd kv)) (fst kv), dq_items (snd kv))) l.

  Lemma od_keys_app {V} (a b : odict V) : od_keys (a ++ b) = od_keys a ++ od_keys b.
  Proof. apply map_app. Qed.

  Lemma sd_tuples_eq c todo done :
    NoDup (od_keys (done ++ todo)) ->
    (forall n v, In (n, v) todo -> od_get n (c_tuples c) = Some v) ->
    (forall n v, In (n, v) todo -> same_shapes shape v = true) ->
    sd_tuples shape c todo (entries_t done) = Ok (entries_t (done ++ todo)).
  Proof.
    revert done. induction todo as [|[k v] r IH]; intros done Hnd Hget Hsh; simpl.
    - now rewrite app_nil_r.
    - unfold get_as_tensor, getitem. rewrite (Hget k v) by now left. simpl.
      assert (Hs : same_shapes shape v = true) by (apply (Hsh k); now left).
      assert (E : (match v with [] => Ok [] | _ :: _ => if same_shapes shape v then Ok v else Raise RuntimeError end)
                  = Ok v) by (destruct v; [reflexivity|rewrite Hs; reflexivity]).
      rewrite E. simpl.
      rewrite od_set_fresh.
      + change (entries_t done ++ [(tuple_key k, v)]) with (entries_t done ++ entries_t [(k, v)]).
        unfold entries_t. rewrite <- map_app. fold (entries_t (done ++ [(k, v)])).
        rewrite IH.
        * now rewrite <- app_assoc.
        * now rewrite <- app_assoc.
        * intros; apply Hget; now right.
        * intros n w H; apply (Hsh n); now right.
      + unfold entries_t, od_keys. rewrite map_map. intros H. apply in_map_iff in H.
        destruct H as ([n w] & H1 & H2). simpl in H1. apply tuple_key_inj in H1. subst n.
        rewrite od_keys_app in Hnd. simpl in Hnd. apply NoDup_remove_2 in Hnd. apply Hnd.
        apply in_or_app; left. apply in_map_iff. now exists (k, w).
  Qed.

  Lemma sd_deques_eq c todo done tl :
    NoDup (od_keys (done ++ todo)) ->
    (forall n d, In (n, d) todo -> od_get n (c_tuples c) = None /\ od_get n (c_deques c) = Some d) ->
    (forall n d, In (n, d) todo -> same_shapes shape (dq_items d) = true) ->
    sd_deques shape c todo (entries_t tl ++ entries_d done) = Ok (entries_t tl ++ entries_d (done ++ todo)).
  Proof.
    revert done. induction todo as [|[k d] r IH]; intros done Hnd Hget Hsh; simpl.
    - now rewrite app_nil_r.
    - unfold get_as_tensor, getitem. destruct (Hget k d ltac:(now left)) as [-> ->]. simpl.
      assert (Hs : same_shapes shape (dq_items d) = true) by (apply (Hsh k); now left).
      assert (E : (match dq_items d with [] => Ok []
                   | _ :: _ => if same_shapes shape (dq_items d) then Ok (dq_items d) else Raise RuntimeError end)
                  = Ok (dq_items d)) by (destruct (dq_items d); [reflexivity|rewrite Hs; reflexivity]).
      rewrite E. simpl.
      rewrite od_set_fresh.
      + rewrite <- app_assoc.
        change (entries_d done ++ [(deque_key (dq_max d) k, dq_items d)]) with (entries_d done ++ entries_d [(k, d)]).
        unfold entries_d at 1 2. rewrite <- map_app. fold (entries_d (done ++ [(k, d)])).
        rewrite IH.
        * now rewrite <- app_assoc.
        * now rewrite <- app_assoc.
        * intros; apply Hget; now right.
        * intros n w H; apply (Hsh n); now right.
      + rewrite od_keys_app. intros H. apply in_app_or in H. destruct H as [H|H].
        * unfold entries_t, od_keys in H. rewrite map_map in H. apply in_map_iff in H.
          destruct H as ([n w] & H1 & H2). simpl in H1. now apply tuple_deque_key_neq in H1.
        * unfold entries_d, od_keys in H. rewrite map_map in H. apply in_map_iff in H.
          destruct H as ([n w] & H1 & H2). simpl in H1. apply deque_key_inj in H1. subst n.
          rewrite od_keys_app in Hnd. simpl in Hnd. apply NoDup_remove_2 in Hnd. apply Hnd.
          apply in_or_app; left. apply in_map_iff. now exists (k, w).
  Qed.

  Lemma state_dict_eq c : saveable shape c ->
    state_dict shape c = Ok (entries_t (c_tuples c) ++ entries_d (c_deques c)).
  Proof.
    intros [H1 H2 H3 H4 H5 H6]. unfold state_dict.
    change (@nil (string * list T)) with (entries_t []).
    rewrite (sd_tuples_eq c (c_tuples c) []); simpl; auto.
    - rewrite <- (app_nil_r (entries_t (c_tuples c))) at 1. change (@nil (string * list T)) with (entries_d []).
      rewrite (sd_deques_eq c (c_deques c) [] (c_tuples c)); auto.
      intros n d Hin. split; [|now apply od_get_In].
      apply od_get_None. intros Hc. apply (H3 n Hc). apply in_map_iff. now exists (n, d).
    - intros; now apply od_get_In.
  Qed.

  (** Loading a dictionary all of whose keys are container keys is a left fold of [load_entry]. *)
  Lemma load_all c sd :
    forallb load_filter (od_keys sd) = true ->
    forall f, (forall c k v, In (k, v) sd -> load_entry c k v = Ok (f c k v)) ->
    load_state_dict c sd = (fold_left (fun c kv => f c (fst kv) (snd kv)) sd c, [], None).
  Proof.
    intros Hall f Hf. unfold load_state_dict.
    assert (E : filter load_filter (od_keys sd) = od_keys sd).
    { clear Hf. induction (od_keys sd) as [|k r IH]; [reflexivity|]. simpl in *.
      apply andb_true_iff in Hall. destruct Hall as [-> H]. f_equal. auto. }
    rewrite E. clear E Hall. revert c. induction sd as [|[k v] r IH]; intros c; [reflexivity|].
    cbn [od_keys map load_keys od_get fst snd fold_left]. rewrite String.eqb_refl, od_del_head.
    rewrite (Hf c k v) by now left. apply IH. intros; apply Hf; now right.
  Qed.

  Definition load_names c (l : odict (list T)) : container T :=
    fold_left (fun c kv => Cont (od_set (str_replace "tensor_" "" (fst kv)) (snd kv) (c_tuples c)) (c_deques c)) l c.

  Lemma load_entries_t l c :
    fold_left (fun c kv => match load_entry c (fst kv) (snd kv) with Ok c' => c' | Raise _ => c end) (entries_t l) c
    = Cont (fold_left (fun d kv => od_set (str_replace "tensor_" "" (fst kv)) (snd kv) d) l (c_tuples c)) (c_deques c).
  Proof.
    revert c. induction l as [|[k v] r IH]; intros c; [now destruct c|].
    cbn [entries_t map fold_left fst snd]. rewrite load_entry_tuple. fold (entries_t r). now rewrite IH.
  Qed.

  Lemma load_entries_d l c :
    fold_left (fun c kv => match load_entry c (fst kv) (snd kv) with Ok c' => c' | Raise _ => c end) (entries_d l) c
    = Cont (c_tuples c)
           (fold_left (fun d kv => od_set (str_replace "tensor_" "" (fst kv))
                                     (Dq (dq_max (snd kv)) (newest (dq_max (snd kv)) (dq_items (snd kv)))) d) l (c_deques c)).
  Proof.
    revert c. induction l as [|[k v] r IH]; intros c; [now destruct c|].
    cbn [entries_d map fold_left fst snd]. rewrite load_entry_deque. fold (entries_d r). now rewrite IH.
  Qed.

  Lemma load_state_dict_eq c t : saveable shape c -> exists sd,
    state_dict shape c = Ok sd /\
    load_state_dict t sd =
      (Cont (fold_left (fun d kv => od_set (str_replace "tensor_" "" (fst kv)) (snd kv) d) (c_tuples c) (c_tuples t))
            (fold_left (fun d kv => od_set (str_replace "tensor_" "" (fst kv)) (snd kv) d) (c_deques c) (c_deques t)),
       [], None).
  Proof.
    intros Hs. eexists. split; [apply state_dict_eq; exact Hs|].
    rewrite (load_all t _) with (f := fun c k v => match load_entry c k v with Ok c' => c' | Raise _ => c end).
    - rewrite fold_left_app, load_entries_t, load_entries_d. simpl. do 3 f_equal.
      destruct Hs as [_ _ _ Hc _ _]. revert Hc. generalize (c_deques t) as z. generalize (c_deques c) as l.
      induction l as [|[k d] r IH]; intros z Hc; simpl; [reflexivity|].
      rewrite (Hc k d) by now left. rewrite IH by (intros; eapply Hc; right; eassumption).
      destruct d; reflexivity.
    - rewrite od_keys_app, forallb_app. apply andb_true_iff. split; apply forallb_forall; intros k Hk;
        unfold od_keys, entries_t, entries_d in Hk; rewrite map_map in Hk; apply in_map_iff in Hk;
        destruct Hk as ([n w] & <- & _); simpl; [apply load_filter_tuple|apply load_filter_deque].
    - intros c0 k v Hk. apply in_app_or in Hk. unfold entries_t, entries_d in Hk.
      destruct Hk as [Hk|Hk]; apply in_map_iff in Hk; destruct Hk as ([n w] & E & _);
        injection E as <- <-; simpl; [rewrite load_entry_tuple|rewrite load_entry_deque]; reflexivity.
  Qed.

  Lemma fold_set_fresh {V} (l d : odict V) :
    (forall n, In n (od_keys l) -> ~ occurs "tensor_" n) ->
    NoDup (od_keys d ++ od_keys l) ->
    fold_left (fun d kv => od_set (str_replace "tensor_" "" (fst kv)) (snd kv) d) l d = d ++ l.
  Proof.
    revert d. induction l as [|[k v] r IH]; intros d Hn Hnd; simpl.
    - now rewrite app_nil_r.
    - rewrite str_replace_none; [|discriminate|apply Hn; now left].
      simpl in Hnd. pose proof (NoDup_remove _ _ _ Hnd) as [Hnd' Hni].
      rewrite od_set_fresh by (intros H; apply Hni, in_or_app; now left).
      rewrite IH.
      + now rewrite <- app_assoc.
      + intros n H; apply Hn; now right.
      + rewrite od_keys_app. simpl. rewrite <- app_assoc. exact Hnd.
  Qed.

  Lemma fold_set_get {V} (l d : odict V) n :
    (forall n, In n (od_keys l) -> ~ occurs "tensor_" n) -> NoDup (od_keys l) ->
    od_get n (fold_left (fun d kv => od_set (str_replace "tensor_" "" (fst kv)) (snd kv) d) l d)
    = match od_get n l with Some v => Some v | None => od_get n d end.
  Proof.
    revert d. induction l as [|[k v] r IH]; intros d Hn Hnd; [reflexivity|].
    inversion Hnd as [|? ? Hnot Hnd']; subst.
    cbn [fold_left fst snd]. rewrite IH; [|intros m Hm; apply Hn; now right|assumption].
    rewrite str_replace_none; [|discriminate|apply Hn; now left].
    rewrite od_get_set. simpl. destruct (String.eqb_spec n k) as [->|Hne].
    - apply od_get_None in Hnot. rewrite Hnot. destruct (string_dec k k); congruence.
    - destruct (string_dec n k); congruence.
  Qed.

  Lemma round_trip c : saveable shape c ->
    (forall n, In n (ckeys c) -> ~ occurs "tensor_" n) ->
    exists sd, state_dict shape c = Ok sd /\ load_state_dict empty_container sd = (c, [], None).
  Proof.
    intros Hs Hn. destruct (load_state_dict_eq c empty_container Hs) as (sd & E1 & E2).
    exists sd. split; [exact E1|]. rewrite E2. simpl.
    rewrite !fold_set_fresh.
    - now destruct c.
    - intros n H; apply Hn; apply in_or_app; now right.
    - apply Hs.
    - intros n H; apply Hn; apply in_or_app; now left.
    - apply Hs.
  Qed.

  Lemma load_over c t : saveable shape c ->
    (forall n, In n (ckeys c) -> ~ occurs "tensor_" n) ->
    exists sd t', state_dict shape c = Ok sd /\ load_state_dict t sd = (t', [], None) /\
      forall n, od_get n (c_tuples t') = match od_get n (c_tuples c) with Some v => Some v | None => od_get n (c_tuples t) end
             /\ od_get n (c_deques t') = match od_get n (c_deques c) with Some v => Some v | None => od_get n (c_deques t) end.
  Proof.
    intros Hs Hn. destruct (load_state_dict_eq c t Hs) as (sd & E1 & E2).
    eexists sd, _. split; [exact E1|]. split; [exact E2|]. intros n. simpl.
    rewrite !fold_set_get; [split; reflexivity| | | |].
    - intros m H; apply Hn; apply in_or_app; now right.
    - apply Hs.
    - intros m H; apply Hn; apply in_or_app; now left.
    - apply Hs.
  Qed.

  (** The remaining dictionary after a load. *)
  Lemma load_keys_rest keys c sd c' sd' :
    load_keys keys c sd = (c', sd', None) ->
    forall k v, In (k, v) sd' -> In (k, v) sd.
  Proof.
    revert c sd. induction keys as [|k r IH]; intros c sd H; simpl in H.
    - injection H as <- <-. auto.
    - destruct (od_get k sd) as [w|] eqn:E; [|discriminate].
      destruct (load_entry c k w) as [c1|e]; [|discriminate].
      intros k0 v0 Hin. apply (IH _ _ H) in Hin. clear -Hin.
      induction sd as [|[q z] s IHs]; simpl in *; [tauto|].
      destruct (String.eqb k q); [now right|]. destruct Hin; [now left|right; auto].
  Qed.

  Lemma load_keys_removed keys c sd c' sd' :
    NoDup (od_keys sd) ->
    load_keys keys c sd = (c', sd', None) ->
    NoDup (od_keys sd') /\ forall k, In k (od_keys sd') <-> In k (od_keys sd) /\ ~ In k keys.
  Proof.
    revert c sd. induction keys as [|k r IH]; intros c sd Hnd H; simpl in H.
    - injection H as <- <-. simpl. split; [exact Hnd|]. tauto.
    - destruct (od_get k sd) as [w|] eqn:E; [|discriminate].
      destruct (load_entry c k w) as [c1|e]; [|discriminate].
      apply IH in H; [|now apply NoDup_od_del]. destruct H as [H1 H2]. split; [exact H1|].
      intros q. rewrite H2.
      assert (Hd : In q (od_keys (od_del k sd)) <-> In q (od_keys sd) /\ q <> k).
      { rewrite <- !od_mem_In, !od_mem_get, (od_get_del q k sd Hnd). destruct (string_dec q k); [|tauto].
        subst. split; [congruence|tauto]. }
      rewrite Hd. simpl. intuition.
  Qed.

  Lemma load_no_keys c sd : (forall k, In k (od_keys sd) -> load_filter k = false) ->
    load_state_dict c sd = (c, sd, None).
  Proof.
    intros H. unfold load_state_dict.
    assert (E : filter load_filter (od_keys sd) = []).
    { induction (od_keys sd) as [|k r IH]; [reflexivity|]. simpl. rewrite (H k) by now left.
      apply IH. intros; apply H; now right. }
    now rewrite E.
  Qed.

  Lemma second_load_noop sd c c' sd' t :
    NoDup (od_keys sd) ->
    load_state_dict c sd = (c', sd', None) -> load_state_dict t sd' = (t, sd', None).
  Proof.
    intros Hnd H. apply load_no_keys. intros k Hk.
    unfold load_state_dict in H. pose proof (load_keys_removed _ _ _ _ _ Hnd H) as [_ H2].
    apply H2 in Hk. destruct Hk as [H3 H4]. rewrite filter_In in H4.
    destruct (load_filter k); [|reflexivity]. exfalso; apply H4. split; auto.
  Qed.

  (** * Histories *)
  Definition repr c (s : view T) : Prop :=
    NoDup (od_keys (c_tuples c)) /\ NoDup (od_keys (c_deques c)) /\
    (forall n d, od_get n (c_deques c) = Some d -> newest (dq_max d) (dq_items d) = dq_items d) /\
    (forall n, as_tuple s n = od_get n (c_tuples c)) /\
    (forall n, as_recording s n = option_map (fun d => (dq_max d, dq_items d)) (od_get n (c_deques c))).

  Lemma newest_idem {A} cap (l : list A) : newest cap (newest cap l) = newest cap l.
  Proof. pose proof (newest_app_newest cap l []) as H. now rewrite !app_nil_r in H. Qed.

  Lemma make_deque_ok c n v cap :
    make_deque c n (Some v) (cap_arg cap) = Ok (Cont (c_tuples c) (od_set n (Dq cap (newest cap v)) (c_deques c))).
  Proof.
    unfold make_deque. rewrite make_dequeue_capacity.
    assert (E : setting_capacity (cap_arg cap) = Some cap).
    { destruct cap; simpl; [|reflexivity]. destruct (Z.leb_spec 0 (Z.of_nat n0)); [|lia]. now rewrite Nat2Z.id. }
    rewrite E. simpl. rewrite (dq_extend_newest (Dq cap []) []); [reflexivity|]. destruct cap; reflexivity.
  Qed.

  Lemma do_op_repr c s o : repr c s ->
    match do_op c o, spec_step s o with
    | Ok c', Some s' => repr c' s'
    | Raise _, None => True
    | _, _ => False
    end.
  Proof.
    intros (Hn1 & Hn2 & Hcap & Ht & Hd). destruct o as [n v|n cap v|n x|n]; cbn [do_op spec_step].
    - split; [now apply NoDup_od_set|]. split; [exact Hn2|]. split; [exact Hcap|]. split; [|exact Hd].
      intros q. cbn. rewrite od_get_set. unfold upd. now destruct (string_dec q n).
    - rewrite make_deque_ok. split; [exact Hn1|]. split; [now apply NoDup_od_set|]. simpl. split; [|split].
      + intros q d. rewrite od_get_set. destruct (string_dec q n); [|apply Hcap].
        intros [= <-]. simpl. apply newest_idem.
      + exact Ht.
      + intros q. rewrite od_get_set. unfold upd. now destruct (string_dec q n).
    - unfold append_to. rewrite Ht, Hd. unfold od_mem.
      destruct (od_get n (c_tuples c)) as [v|] eqn:E1; [exact I|].
      destruct (od_get n (c_deques c)) as [d|] eqn:E2; simpl; [|exact I].
      split; [exact Hn1|]. split; [now apply NoDup_od_set|]. simpl.
      rewrite (dq_append_newest d (dq_items d) x) by (symmetry; eapply Hcap; eassumption).
      split; [|split].
      + intros q d'. rewrite od_get_set. destruct (string_dec q n); [|apply Hcap].
        intros [= <-]. simpl. apply newest_idem.
      + exact Ht.
      + intros q. rewrite od_get_set. unfold upd. now destruct (string_dec q n).
    - unfold delitem. rewrite Ht, Hd. unfold od_mem.
      destruct (od_get n (c_tuples c)) as [v|] eqn:E1.
      + split; [now apply NoDup_od_del|]. split; [exact Hn2|]. split; [exact Hcap|]. split; [|exact Hd].
        intros q. simpl. rewrite od_get_del by assumption. unfold upd. now destruct (string_dec q n).
      + destruct (od_get n (c_deques c)) as [d|] eqn:E2; simpl; [|exact I].
        split; [exact Hn1|]. split; [now apply NoDup_od_del|]. simpl. split; [|split].
        * intros q d'. rewrite od_get_del by assumption. destruct (string_dec q n); [discriminate|apply Hcap].
        * exact Ht.
        * intros q. rewrite od_get_del by assumption. unfold upd. now destruct (string_dec q n).
  Qed.

  Lemma do_ops_repr os : forall c s, repr c s -> repr (do_ops c os) (spec_run s os).
  Proof.
    induction os as [|o os IH]; intros c s H; [exact H|]. simpl.
    pose proof (do_op_repr c s o H) as Ho.
    destruct (do_op c o), (spec_step s o); try tauto; apply IH; assumption.
  Qed.

  Lemma repr_empty : repr empty_container empty_view.
  Proof. repeat split; try constructor. discriminate. Qed.

  Lemma repr_lookup c s n : repr c s ->
    getitem c n = match spec_lookup s n with Some v => Ok v | None => Raise GenericException end /\
    (ccontains c n = true <-> spec_lookup s n <> None) /\
    (In n (ckeys c) <-> spec_lookup s n <> None).
  Proof.
    intros (Hn1 & Hn2 & Hcap & Ht & Hd). unfold getitem, spec_lookup, ccontains, ckeys. rewrite Ht, Hd.
    rewrite in_app_iff, orb_true_iff, <- !od_mem_In. unfold od_mem.
    destruct (od_get n (c_tuples c)), (od_get n (c_deques c)); simpl; intuition congruence.
  Qed.

  (** Every recording of a container reached by a history of operations respects its capacity and all names are
      unique: the structural part of [saveable] always holds. *)
  Lemma reachable_structure (os : list (op T)) :
    let c := do_ops empty_container os in
    NoDup (od_keys (c_tuples c)) /\ NoDup (od_keys (c_deques c)) /\
    forall n d, In (n, d) (c_deques c) -> newest (dq_max d) (dq_items d) = dq_items d.
  Proof.
    destruct (do_ops_repr os _ _ repr_empty) as (H1 & H2 & H3 & _). simpl. split; [exact H1|]. split; [exact H2|].
    intros n d Hin. eapply H3. apply od_get_In; eassumption.
  Qed.

  Lemma clen_keys c : clen c = length (ckeys c).
  Proof. unfold clen, ckeys, od_keys. now rewrite app_length, !map_length. Qed.

  Lemma combine_app {A B} (a a' : list A) (b b' : list B) :
    length a = length b -> combine (a ++ a') (b ++ b') = combine a b ++ combine a' b'.
  Proof. revert b. induction a; intros [|]; simpl; intros; try discriminate; [reflexivity|]. f_equal. auto. Qed.

  Lemma combine_keys_values {V W} (f : V -> W) (d : odict V) :
    combine (od_keys d) (map f (od_values d)) = map (fun kv => (fst kv, f (snd kv))) d.
  Proof. unfold od_keys, od_values. induction d as [|[k v] r IH]; simpl; [reflexivity|]. now f_equal. Qed.

  Lemma repr_values c s k v : repr c s ->
    In (k, v) (combine (ckeys c) (cvalues c)) <->
    as_tuple s k = Some v \/ exists cap, as_recording s k = Some (cap, v).
  Proof.
    intros (Hn1 & Hn2 & Hcap & Ht & Hd). unfold ckeys, cvalues. rewrite Ht, Hd.
    rewrite combine_app by (unfold od_keys, od_values; now rewrite !map_length).
    rewrite in_app_iff, <- (map_id (od_values (c_tuples c))), !combine_keys_values, !in_map_iff.
    split; (intros [H|H]; [left|right]).
    - destruct H as ([n w] & E & Hin). injection E as <- <-. now apply od_get_In.
    - destruct H as ([n w] & E & Hin). injection E as <- <-. exists (dq_max w).
      rewrite (od_get_In n w) by assumption. reflexivity.
    - exists (k, v). split; [reflexivity|]. now apply od_get_Some_In.
    - destruct H as [cap H]. destruct (od_get k (c_deques c)) as [d|] eqn:E; [|discriminate].
      injection H as <- <-. exists (k, d). split; [reflexivity|]. now apply od_get_Some_In.
  Qed.

  Lemma container_init_get (kwargs : odict (option (list T))) n :
    NoDup (od_keys kwargs) ->
    getitem (container_init kwargs) n
    = match od_get n kwargs with Some (Some v) => Ok v | _ => Raise GenericException end.
  Proof.
    intros Hnd. unfold container_init.
    assert (H : forall c, c_deques c = [] ->
      let c' := fold_left (fun c kv => match snd kv with Some v => make_tuple c (fst kv) (Some v) | None => c end) kwargs c in
      c_deques c' = [] /\ od_get n (c_tuples c') = match od_get n kwargs with Some (Some v) => Some v | _ => od_get n (c_tuples c) end).
    { induction kwargs as [|[k o] r IH]; intros c Hc; simpl; [split; [exact Hc|reflexivity]|].
      inversion Hnd as [|? ? Hni Hnd']; subst.
      destruct o as [v|].
      - destruct (IH Hnd' (make_tuple c k (Some v)) Hc) as [H1 H2]. split; [exact H1|]. simpl in H2. rewrite H2.
        rewrite od_get_set. destruct (String.eqb_spec n k) as [->|Hne].
        + apply od_get_None in Hni. rewrite Hni. destruct (string_dec k k); congruence.
        + destruct (string_dec n k); [congruence|]. reflexivity.
      - destruct (IH Hnd' c Hc) as [H1 H2]. split; [exact H1|]. rewrite H2.
        destruct (String.eqb_spec n k) as [->|Hne]; [|reflexivity].
        apply od_get_None in Hni. now rewrite Hni. }
    destruct (H empty_container eq_refl) as [H1 H2]. unfold getitem. simpl in *. rewrite H1, H2.
    destruct (od_get n kwargs) as [[v|]|]; reflexivity.
  Qed.
End RoundTrip.
