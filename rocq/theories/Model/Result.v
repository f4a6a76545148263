(** Model of filter results: pyfilter/filters/result.py, the storage side of pyfilter/filters/particle/state.py and
    pyfilter/state.py.  Python shares tensors between objects and updates some of them in place, so tensors and state
    objects live in an explicit heap and are referred to by address.

    A tensor is represented by the list of its entries along the dimension of the parallel filters: a number for a
    log-likelihood, a column of numbers for particles, weights and moments, a column of ancestors for indices.
    Particle tensors have that dimension second ([[:, indices]] in state.py:151-155), the others first.
    Unbatched filters are not modelled here ([resample] and [exchange] only make sense for parallel filters). *)
From Coq Require Import Reals List Bool Arith ZArith String.
From Verif.Model Require Import Base Xf Container.
Import ListNotations.
Local Open Scope nat_scope.

Inductive cell : Type := Num (x : xf) | Arr (l : list xf) | Idx (l : list nat).
Definition tensor := list cell.
Definition addr := nat.

(** filters/particle/state.py:88-95: the entries of a ParticleFilterCorrection; [s_x] is the tensor inside the
    TimeseriesState, [s_time] its time index. *)
Record sobj : Type :=
  SObj { s_time : Z; s_x : addr; s_w : addr; s_ll : addr; s_inds : addr; s_mean : addr; s_var : addr }.

Record heap : Type := Heap { h_tens : list tensor; h_objs : list sobj }.
Definition get (h : heap) (a : addr) : tensor := nth a (h_tens h) [].
Definition no_obj : sobj := SObj 0 0 0 0 0 0 0.
Definition obj (h : heap) (o : addr) : sobj := nth o (h_objs h) no_obj.

Fixpoint lupd {A} (l : list A) (i : nat) (v : A) : list A :=
  match l, i with
  | [], _ => []
  | _ :: r, 0 => v :: r
  | x :: r, S i => x :: lupd r i v
  end.
Definition set (h : heap) (a : addr) (t : tensor) : heap := Heap (lupd (h_tens h) a t) (h_objs h).
Definition set_obj (h : heap) (o : addr) (s : sobj) : heap := Heap (h_tens h) (lupd (h_objs h) o s).
Definition alloc (h : heap) (t : tensor) : heap * addr :=
  (Heap (h_tens h ++ [t]) (h_objs h), List.length (h_tens h)).
Definition alloc_obj (h : heap) (s : sobj) : heap * addr :=
  (Heap (h_tens h) (h_objs h ++ [s]), List.length (h_objs h)).

(** ** Tensor primitives *)

(** [tensor[indices]] along the dimension of the parallel filters; an index out of range raises IndexError.
    (Negative indices are not modelled: resampling functions return none.) *)
Definition gather (t : tensor) (idx : list nat) : res tensor :=
  if forallb (fun i => i <? List.length t) idx then Ok (map (fun i => nth i t (Num NaN)) idx) else Raise IndexError.

(** [tensor.copy_(source)]: equal sizes, or a source of size one which is broadcast. *)
Definition copy_ (t source : tensor) : res tensor :=
  if List.length source =? List.length t then Ok source
  else if List.length source =? 1 then Ok (repeat (nth 0 source (Num NaN)) (List.length t))
  else Raise RuntimeError.

Definition cell_add (a b : cell) : cell := match a, b with Num x, Num y => Num (xadd x y) | _, _ => a end.
(** [tensor.add_(other)] of vectors of numbers of equal size (other sizes: RuntimeError). *)
Definition add_ (t other : tensor) : res tensor :=
  if List.length other =? List.length t then Ok (map (fun p => cell_add (fst p) (snd p)) (combine t other))
  else Raise RuntimeError.

(** [tensor[mask] = other[mask]]: both masks must have the size of their tensor. *)
Definition mask_set (t other : tensor) (mask : list bool) : res tensor :=
  if ((List.length mask =? List.length t) && (List.length other =? List.length t))%bool
  then Ok (map (fun p : bool * cell * cell => if fst (fst p) then snd p else snd (fst p)) (combine (combine mask t) other))
  else Raise IndexError.

Fixpoint foldM {A B} (f : B -> A -> res B) (l : list A) (b : B) : res B :=
  match l with [] => Ok b | x :: r => let! b' := f b x in foldM f r b' end.

(** In-place forms. *)
Definition index_copy (idx : list nat) (h : heap) (a : addr) : res heap :=
  let! g := gather (get h a) idx in let! t := copy_ (get h a) g in Ok (set h a t).
Definition mask_write (mask : list bool) (h : heap) (da : addr * addr) : res heap :=
  let! t := mask_set (get h (fst da)) (get h (snd da)) mask in Ok (set h (fst da) t).

(** ** States *)

(** filters/particle/state.py:150-158 resample.  Line 154 assigns the selected log-likelihoods to the positions they
    came from: the tensor stays as it is (an index out of range raises). *)
Definition state_resample (idx : list nat) (h : heap) (o : addr) : res heap :=
  let s := obj h o in
  let! x := gather (get h (s_x s)) idx in
  let (h, ax) := alloc h x in
  let! w := gather (get h (s_w s)) idx in
  let (h, aw) := alloc h w in
  let! _ := gather (get h (s_ll s)) idx in
  let! i := gather (get h (s_inds s)) idx in
  let (h, ai) := alloc h i in
  let! m := gather (get h (s_mean s)) idx in
  let (h, am) := alloc h m in
  let! v := gather (get h (s_var s)) idx in
  let (h, av) := alloc h v in
  Ok (set_obj h o (SObj (s_time s) ax aw (s_ll s) ai am av)).

(** filters/particle/state.py:160-168 exchange: six in-place writes. *)
Definition state_pairs (s other : sobj) : list (addr * addr) :=
  [(s_x s, s_x other); (s_w s, s_w other); (s_ll s, s_ll other); (s_inds s, s_inds other);
   (s_mean s, s_mean other); (s_var s, s_var other)].
Definition state_exchange (mask : list bool) (h : heap) (oo : addr * addr) : res heap :=
  foldM (mask_write mask) (state_pairs (obj h (fst oo)) (obj h (snd oo))) h.

(** ** Results *)

(** filters/result.py:32-39.  [r_tt]: [tensor_tuples]; [r_states]: the deque of states. *)
Record result : Type := Result { r_ll : addr; r_tt : container addr; r_states : dq addr }.

(** filters/result.py:119-133 append. *)
Definition append (h : heap) (r : result) (o : addr) : res (heap * result) :=
  let s := obj h o in
  let! c1 := append_to (r_tt r) "filter_means" (s_mean s) in
  let! c2 := append_to c1 "filter_variances" (s_var s) in
  let! t := add_ (get h (r_ll r)) (get h (s_ll s)) in
  Ok (set h (r_ll r) t, Result (r_ll r) c2 (dq_append (r_states r) o)).

(** filters/result.py:20-40 __init__: the running total *is* the tensor of the initial state (line 34). *)
Definition init_result (h : heap) (o : addr) (record_states record_moments : maxlen_arg) : res (heap * result) :=
  let! c1 := make_deque empty_container "filter_means" None record_moments in
  let! c2 := make_deque c1 "filter_variances" None record_moments in
  let! d := make_dequeue record_states in
  append h (Result (s_ll (obj h o)) c2 d) o.

(** filters/result.py:97-117 resample. *)
Definition resample (h : heap) (r : result) (idx : list nat) (entire_history : bool) : res heap :=
  let! h := index_copy idx h (r_ll r) in
  let! h := if entire_history then foldM (index_copy idx) (List.concat (cvalues (r_tt r))) h else Ok h in
  foldM (state_resample idx) (dq_items (r_states r)) h.

(** filters/result.py:76-95 exchange: zip stops at the shorter argument. *)
Definition exchange (h : heap) (r other : result) (mask : list bool) : res heap :=
  let! h := mask_write mask h (r_ll r, r_ll other) in
  let! h := foldM (mask_write mask)
              (List.concat (map (fun p : list addr * list addr => combine (fst p) (snd p)) (combine (cvalues (r_tt r)) (cvalues (r_tt other))))) h in
  foldM (state_exchange mask) (combine (dq_items (r_states r)) (dq_items (r_states other))) h.

(** ** Reports *)

(** filters/result.py:42-74: contents of the log-likelihood, the recorded moments, the states. *)
Definition rep_ll (h : heap) (r : result) : tensor := get h (r_ll r).
Definition rep_moment (h : heap) (r : result) (name : string) : list tensor :=
  match getitem (r_tt r) name with Ok l => map (get h) l | Raise _ => [] end.

(** Contents of a state. *)
Record sview : Type :=
  SView { v_time : Z; v_x : tensor; v_w : tensor; v_ll : tensor; v_inds : tensor; v_mean : tensor; v_var : tensor }.
Definition view (h : heap) (o : addr) : sview :=
  let s := obj h o in
  SView (s_time s) (get h (s_x s)) (get h (s_w s)) (get h (s_ll s)) (get h (s_inds s)) (get h (s_mean s))
        (get h (s_var s)).
Definition rep_states (h : heap) (r : result) : list sview := map (view h) (dq_items (r_states r)).
(** filters/result.py:72-74 latest_state: IndexError without states. *)
Definition latest (r : result) : res addr :=
  match rev (dq_items (r_states r)) with o :: _ => Ok o | [] => Raise IndexError end.

(** ** New states made by filtering *)

(** Where a new state's weights or indices come from: a new tensor, or the previous state's own tensor:
    sisr.py:26 passes on both when no filter is resampled, sisr.py:55 and gpf.py:26-34 the indices,
    state.py:42 both for a missing observation. *)
Inductive source : Type := New (t : tensor) | Shared.
Definition place (h : heap) (src : source) (old : addr) : heap * addr :=
  match src with New t => alloc h t | Shared => (h, old) end.

(** Contents of the state a filter step produces; values, log-likelihood and moments are always new tensors
    (state.py:39-42, 95; sisr.py:51-56; apf.py:41-46; gpf.py:32-34).
    Simplification: the sanitising of [_w] in place by [normalize] (pyfilter/utils.py:59-60), which changes nothing the
    second time (Props/WeightsProps.v, C07), is not repeated. *)
Record content : Type :=
  Content { n_time : Z; n_x : tensor; n_w : source; n_ll : tensor; n_inds : source; n_mean : tensor; n_var : tensor }.
Definition new_state (h : heap) (prev : addr) (c : content) : heap * addr :=
  let p := obj h prev in
  let (h, ax) := alloc h (n_x c) in
  let (h, aw) := place h (n_w c) (s_w p) in
  let (h, al) := alloc h (n_ll c) in
  let (h, ai) := place h (n_inds c) (s_inds p) in
  let (h, am) := alloc h (n_mean c) in
  let (h, av) := alloc h (n_var c) in
  alloc_obj h (SObj (n_time c) ax aw al ai am av).

(** filters/base.py:152-156 and 218-219: a step appends the state made from the previous one to the result.  The
    caller holds the previous state, which need not be recorded. *)
Definition step (h : heap) (r : result) (prev : addr) (c : content) : res (heap * result * addr) :=
  let (h, o) := new_state h prev c in
  let! (h, r) := append h r o in
  Ok (h, r, o).
Definition steps (h : heap) (r : result) (prev : addr) (cs : list content) : res (heap * result * addr) :=
  foldM (fun s c => let '(h, r, o) := s in step h r o c) cs (h, r, prev).

(** filters/particle/base.py:87-103 initialize: a state of new tensors. *)
Definition fresh_state (h : heap) (time : Z) (x w ll inds mean var : tensor) : heap * addr :=
  let (h, ax) := alloc h x in
  let (h, aw) := alloc h w in
  let (h, al) := alloc h ll in
  let (h, ai) := alloc h inds in
  let (h, am) := alloc h mean in
  let (h, av) := alloc h var in
  alloc_obj h (SObj time ax aw al ai am av).

(** ** Saving and loading *)

(** filters/particle/state.py:176-185: the state's own tensors, not copies. *)
Record saved_state : Type := SavedState { d_obj : sobj }.
(** filters/result.py:135-145. *)
Record saved : Type := Saved { d_tt : odict (list addr); d_state : saved_state; d_ll : addr }.

Definition cell_size (c : cell) : nat := match c with Num _ => 1 | Arr l => List.length l | Idx l => List.length l end.
Definition shape_at (h : heap) (a : addr) : list nat := map cell_size (get h a).

(** container.py:66-79: [torch.stack] makes one new tensor, whose rows are new tensors here. *)
Fixpoint copy_rows (h : heap) (l : list addr) : heap * list addr :=
  match l with
  | [] => (h, [])
  | a :: r => let (h, a') := alloc h (get h a) in let (h, r') := copy_rows h r in (h, a' :: r')
  end.
Fixpoint copy_dict (h : heap) (d : odict (list addr)) : heap * odict (list addr) :=
  match d with
  | [] => (h, [])
  | (k, l) :: r => let (h, l') := copy_rows h l in let (h, r') := copy_dict h r in (h, (k, l') :: r')
  end.

(** filters/result.py:135-145 and pyfilter/state.py:32-37 state_dict. *)
Definition res_state_dict (h : heap) (r : result) : res (heap * saved) :=
  let! tup := Container.state_dict (shape_at h) (r_tt r) in
  let (h, tup) := copy_dict h tup in
  let! o := latest r in
  Ok (h, Saved tup (SavedState (obj h o)) (r_ll r)).

(** filters/particle/state.py:187-208 load_state_dict: pointers into the dictionary are stored; the new time index
    is the old one plus the difference (lines 200-202). *)
Definition state_load (h : heap) (o : addr) (d : saved_state) : res heap :=
  let s := obj h o in
  let v := d_obj d in
  if list_eq_dec Nat.eq_dec (shape_at h (s_x s)) (shape_at h (s_x v))
  then Ok (set_obj h o (SObj (s_time s + (- s_time s + s_time v)) (s_x v) (s_w v) (s_ll v) (s_inds v) (s_mean v) (s_var v)))
  else Raise AssertionError.

(** filters/result.py:147-154 and pyfilter/state.py:39-47 load_state_dict; the container entries are popped from the
    dictionary (Model/Container.v). *)
Definition res_load (h : heap) (r : result) (d : saved) : res (heap * result * saved) :=
  let '(tup, rest, err) := Container.load_state_dict (r_tt r) (d_tt d) in
  match err with
  | Some e => Raise e
  | None =>
      match dq_items (r_states r) with
      | [o] => let! h := state_load h o (d_state d) in
               Ok (h, Result (d_ll d) tup (r_states r), Saved rest (d_state d) (d_ll d))
      | _ => Raise AssertionError
      end
  end.

(** torch.save followed by torch.load, or [copy.deepcopy] of a saved dictionary: the same contents in new tensors.
    Simplification: sharing *within* the dictionary (possible between the log-likelihood and the state's own when no
    observation has been filtered) is kept for that one pair. *)
Definition serialise (h : heap) (d : saved) : heap * saved :=
  let (h, tup) := copy_dict h (d_tt d) in
  let s := d_obj (d_state d) in
  let (h, ax) := alloc h (get h (s_x s)) in
  let (h, aw) := alloc h (get h (s_w s)) in
  let (h, al) := alloc h (get h (s_ll s)) in
  let (h, ai) := alloc h (get h (s_inds s)) in
  let (h, am) := alloc h (get h (s_mean s)) in
  let (h, av) := alloc h (get h (s_var s)) in
  let (h, at_) := if d_ll d =? s_ll s then (h, al) else alloc h (get h (d_ll d)) in
  (h, Saved tup (SavedState (SObj (s_time s) ax aw al ai am av)) at_).
