(** Vocabulary for statements about filter results: selections, merges, executions, sharing.  Written over the reports
    of a result and the plain data of the heap, not over the operations of the model. *)
From Coq Require Import Reals List Bool Arith ZArith String.
From Verif.Spec Require Import ContainerSpec.
From Verif.Model Require Import Base Xf Container Result.
Import ListNotations.
Local Open Scope nat_scope.

(** Entry [j] of [t'] is what entry [idx[j]] of [t] was. *)
Definition selects (idx : list nat) (t t' : tensor) : Prop :=
  List.length t' = List.length idx /\
  forall j, j < List.length idx -> nth_error t' j = nth_error t (nth j idx 0).

(** Entry [j] of [t'] is the new one where the mask is set and the old one elsewhere. *)
Definition merges (mask : list bool) (old new t' : tensor) : Prop :=
  List.length t' = List.length old /\
  forall j, j < List.length old -> nth_error t' j = nth_error (if nth j mask false then new else old) j.

Definition valid_indices (b : nat) (idx : list nat) : Prop :=
  List.length idx = b /\ Forall (fun i => i < b) idx.

(** Addresses a state refers to, and the ones a result records. *)
Definition moments (r : result) : list addr := List.concat (cvalues (r_tt r)).
Definition recorded (r : result) : list addr := r_ll r :: moments r.
Definition fields (s : sobj) : list addr := [s_x s; s_w s; s_ll s; s_inds s; s_mean s; s_var s].

(** A tensor of the heap with one entry per parallel filter. *)
Definition batched (b : nat) (h : heap) (a : addr) : Prop :=
  a < List.length (h_tens h) /\ List.length (get h a) = b.

(** Contents for [b] parallel filters. *)
Definition source_ok (b : nat) (s : source) : Prop := match s with New t => List.length t = b | Shared => True end.
Definition content_ok (b : nat) (c : content) : Prop :=
  List.length (n_x c) = b /\ source_ok b (n_w c) /\ List.length (n_ll c) = b /\ source_ok b (n_inds c) /\
  List.length (n_mean c) = b /\ List.length (n_var c) = b.

(** The recording settings python accepts. *)
Definition valid_setting (m : maxlen_arg) : Prop := match m with MLInt z => (0 <= z)%Z | _ => True end.

(** What happens to a result during inference: observations are filtered, and whole filters are resampled (with or
    without the recorded history).  [ex_prev] is the state the next step starts from. *)
Inductive rop : Type := RStep (c : content) | RResample (idx : list nat) (history : bool).
Definition rop_ok (b : nat) (e : rop) : Prop :=
  match e with RStep c => content_ok b c | RResample idx _ => valid_indices b idx end.
Definition do_op (s : heap * result * addr) (e : rop) : res (heap * result * addr) :=
  let '(h, r, o) := s in
  match e with
  | RStep c => step h r o c
  | RResample idx history => let! h := resample h r idx history in Ok (h, r, o)
  end.

(** Everything a result and its current state refer to. *)
Definition objects (r : result) (o : addr) : list addr := o :: dq_items (r_states r).
Definition footprint (h : heap) (r : result) (o : addr) : list addr :=
  recorded r ++ flat_map (fun k => fields (obj h k)) (objects r o).

(** Nothing a result refers to has changed. *)
Record untouched (h h' : heap) (r : result) (o : addr) : Prop := {
  ut_size : List.length (h_tens h) <= List.length (h_tens h');
  ut_osize : List.length (h_objs h) <= List.length (h_objs h');
  ut_tens : forall a, In a (footprint h r o) -> get h' a = get h a;
  ut_objs : forall k, In k (objects r o) -> obj h' k = obj h k
}.

(** A result and the current state, started by a filter's [initialize] in any heap and then driven by any
    operations: filtering, resampling, exchanging with any other result, interleaved with work on other data. *)
Inductive reachable (b : nat) : heap -> result -> addr -> Prop :=
| reach_init : forall h time x w ll inds mean var h1 o rs rm h2 r,
    List.length x = b -> List.length w = b -> List.length ll = b -> List.length inds = b ->
    List.length mean = b -> List.length var = b ->
    fresh_state h time x w ll inds mean var = (h1, o) ->
    init_result h1 o rs rm = Ok (h2, r) ->
    reachable b h2 r o
| reach_op : forall h r o e h' r' o',
    reachable b h r o -> rop_ok b e -> do_op (h, r, o) e = Ok (h', r', o') -> reachable b h' r' o'
| reach_exchange : forall h r o other mask h',
    reachable b h r o -> exchange h r other mask = Ok h' -> reachable b h' r o
| reach_elsewhere : forall h r o h', reachable b h r o -> untouched h h' r o -> reachable b h' r o.

(** Two results that share neither tensors nor state objects. *)
Definition separate (h : heap) (r : result) (o : addr) (r' : result) (o' : addr) : Prop :=
  (forall a, In a (footprint h r o) -> ~ In a (footprint h r' o')) /\
  (forall k, In k (objects r o) -> ~ In k (objects r' o')).

(** Entry [j] of a log-likelihood vector. *)
Definition entry (t : tensor) (j : nat) : xf := match nth j t (Num NaN) with Num x => x | _ => NaN end.
Definition numbers (t : tensor) : Prop := Forall (fun c => exists x, c = Num x) t.

(** Left-to-right sum. *)
Definition total (start : xf) (l : list xf) : xf := fold_left xadd l start.

(** How many entries a recording setting keeps ([None]: all of them). *)
Definition window (m : maxlen_arg) : option nat :=
  match m with
  | MLNone | MLBool true => None
  | MLBool false => Some 1
  | MLInt z => Some (Z.to_nat z)
  end.

(** The state that follows another one: new contents, with weights or ancestors of the previous state where shared. *)
Definition follows (v : sview) (c : content) : sview :=
  SView (n_time c) (n_x c) (match n_w c with New t => t | Shared => v_w v end) (n_ll c)
        (match n_inds c with New t => t | Shared => v_inds v end) (n_mean c) (n_var c).

(** Which place of a result (left) is paired with which place of another one (right): the totals, the recorded moments
    and the six tensors of every recorded state, as far as both have them. *)
Definition corresponding (h : heap) (r r' : result) : list (addr * addr) :=
  (r_ll r, r_ll r')
  :: List.concat (map (fun p : list addr * list addr => combine (fst p) (snd p)) (combine (cvalues (r_tt r)) (cvalues (r_tt r'))))
  ++ flat_map (fun p : addr * addr => combine (fields (obj h (fst p))) (fields (obj h (snd p))))
       (combine (dq_items (r_states r)) (dq_items (r_states r'))).

(** Equal at every filter the mask selects. *)
Definition agree_on (mask : list bool) (t t' : tensor) : Prop :=
  forall j, nth j mask false = true -> nth_error t j = nth_error t' j.

(** Places of a result that are one tensor are paired with places that agree where the mask is set. *)
Definition aligned (h : heap) (mask : list bool) (r r' : result) : Prop :=
  forall a s s', In (a, s) (corresponding h r r') -> In (a, s') (corresponding h r r') ->
  agree_on mask (get h s) (get h s').

(** Merging of state reports. *)
Definition merges_view (mask : list bool) (old new v : sview) : Prop :=
  v_time v = v_time old /\ merges mask (v_x old) (v_x new) (v_x v) /\ merges mask (v_w old) (v_w new) (v_w v) /\
  merges mask (v_ll old) (v_ll new) (v_ll v) /\ merges mask (v_inds old) (v_inds new) (v_inds v) /\
  merges mask (v_mean old) (v_mean new) (v_mean v) /\ merges mask (v_var old) (v_var new) (v_var v).

(** Everything a result (and the state the next step starts from) reports. *)
Definition moment_names : list string := ["filter_means"; "filter_variances"]%string.
Definition same_reports (h h' : heap) (r : result) (o : addr) : Prop :=
  rep_ll h' r = rep_ll h r /\ (forall name, In name moment_names -> rep_moment h' r name = rep_moment h r name) /\
  rep_states h' r = rep_states h r /\ view h' o = view h o.

(** The newest recorded moments are those of the latest state. *)
Definition latest_recorded (h : heap) (r : result) (o : addr) : Prop :=
  (rep_moment h r "filter_means" <> [] -> List.last (rep_moment h r "filter_means") [] = v_mean (view h o)) /\
  (rep_moment h r "filter_variances" <> [] -> List.last (rep_moment h r "filter_variances") [] = v_var (view h o)).

(** Position by position, as far as both lists go. *)
Definition merges_lists (mask : list bool) (old new l : list tensor) : Prop :=
  List.length l = List.length old /\
  forall i t, nth_error l i = Some t -> exists t0, nth_error old i = Some t0 /\
    match nth_error new i with Some t1 => merges mask t0 t1 t | None => t = t0 end.

(** Anything that may happen to a result: filtering, resampling, exchanging with whatever other result. *)
Inductive action : Type := ADo (e : rop) | AExchange (other : result) (mask : list bool).
Definition action_ok (b : nat) (e : action) : Prop := match e with ADo e => rop_ok b e | AExchange _ _ => True end.
Definition act (s : heap * result * addr) (e : action) : res (heap * result * addr) :=
  let '(h, r, o) := s in
  match e with
  | ADo e => do_op (h, r, o) e
  | AExchange other mask => let! h := exchange h r other mask in Ok (h, r, o)
  end.
Definition acts (s : heap * result * addr) (es : list action) : res (heap * result * addr) := foldM act es s.

(** Contents of a saved dictionary. *)
Definition saved_rows (h : heap) (d : saved) : list (string * list tensor) :=
  map (fun p : string * list addr => (fst p, map (get h) (snd p))) (d_tt d).
Definition saved_view (h : heap) (d : saved) : sview :=
  let s := d_obj (d_state d) in
  SView (s_time s) (get h (s_x s)) (get h (s_w s)) (get h (s_ll s)) (get h (s_inds s)) (get h (s_mean s)) (get h (s_var s)).
Definition saved_ll (h : heap) (d : saved) : tensor := get h (d_ll d).
Definition same_saved (h h' : heap) (d : saved) : Prop :=
  saved_rows h' d = saved_rows h d /\ saved_view h' d = saved_view h d /\ saved_ll h' d = saved_ll h d.

(** All recorded entries have one shape, so that they can be stacked. *)
Definition one_shape (l : list tensor) : Prop := forall t t', In t l -> In t' l -> map cell_size t = map cell_size t'.
