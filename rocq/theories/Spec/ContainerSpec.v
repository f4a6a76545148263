(** Independent specification vocabulary for pyfilter/container.py. *)
From Coq Require Import String List ZArith.
From Verif.Model Require Import Base Container.
Import ListNotations.

(** The newest [k] entries of a history (all of them if there are fewer). *)
Definition newest {A} (cap : option nat) (history : list A) : list A :=
  match cap with
  | None => history
  | Some k => skipn (length history - k) history
  end.

(** Textual occurrence. *)
Definition occurs (sub s : string) : Prop := exists a b, s = (a ++ sub ++ b)%string.

(** Abstract view of a container: what a name denotes as a tuple and as a bounded recording. *)
Record view (A : Type) := View {
  as_tuple : string -> option (list A);
  as_recording : string -> option (option nat * list A) }.
Arguments View {A}. Arguments as_tuple {A}. Arguments as_recording {A}.

Definition upd {B} (f : string -> option B) (k : string) (v : option B) : string -> option B :=
  fun x => if string_dec x k then v else f x.

(** Operations a user performs on a container.  [CreateRecording] creates a bounded recording with a given capacity
    ([None]: unbounded) holding the newest entries of some initial values. *)
Inductive op (A : Type) :=
| CreateTuple (name : string) (values : list A)
| CreateRecording (name : string) (cap : option nat) (values : list A)
| Append (name : string) (x : A)
| Delete (name : string).
Arguments CreateTuple {A}. Arguments CreateRecording {A}. Arguments Append {A}. Arguments Delete {A}.

(** Effect of a *successful* operation on the abstract view; [None]: the operation is refused. *)
Definition spec_step {A} (s : view A) (o : op A) : option (view A) :=
  match o with
  | CreateTuple n v => Some (View (upd (as_tuple s) n (Some v)) (as_recording s))
  | CreateRecording n cap v =>
      Some (View (as_tuple s) (upd (as_recording s) n (Some (cap, newest cap v))))
  | Append n x =>
      match as_tuple s n, as_recording s n with
      | None, Some (cap, l) =>
          Some (View (as_tuple s) (upd (as_recording s) n (Some (cap, newest cap (l ++ [x])))))
      | _, _ => None
      end
  | Delete n =>
      match as_tuple s n, as_recording s n with
      | Some _, _ => Some (View (upd (as_tuple s) n None) (as_recording s))
      | None, Some _ => Some (View (as_tuple s) (upd (as_recording s) n None))
      | None, None => None
      end
  end.

(** What a lookup shows: the tuple if there is one, else the recording, else nothing. *)
Definition spec_lookup {A} (s : view A) (n : string) : option (list A) :=
  match as_tuple s n with
  | Some v => Some v
  | None => match as_recording s n with Some (_, l) => Some l | None => None end
  end.

(** A whole history: refused operations leave the view as it is. *)
Definition spec_run {A} (s : view A) (os : list (op A)) : view A :=
  fold_left (fun s o => match spec_step s o with Some s' => s' | None => s end) os s.

Definition empty_view {A} : view A := View (fun _ => None) (fun _ => None).

(** ** Connection to the model *)
Section Connect.
  Context {T : Type}.
  Variable shape : T -> list nat.
  Implicit Types c : container T.

  (** A saveable container: unique names per kind, no name of both kinds, capacities respected, equal shapes
      within a recording (otherwise torch.stack refuses). *)
  Record saveable c : Prop := {
    sv_nd_t : NoDup (od_keys (c_tuples c));
    sv_nd_d : NoDup (od_keys (c_deques c));
    sv_disj : forall n, In n (od_keys (c_tuples c)) -> ~ In n (od_keys (c_deques c));
    sv_cap : forall n d, In (n, d) (c_deques c) -> newest (dq_max d) (dq_items d) = dq_items d;
    sv_shape_t : forall n v, In (n, v) (c_tuples c) -> same_shapes shape v = true;
    sv_shape_d : forall n d, In (n, d) (c_deques c) -> same_shapes shape (dq_items d) = true }.

  (** The model call performed by each user operation. *)
  Definition cap_arg (cap : option nat) : maxlen_arg :=
    match cap with None => MLNone | Some k => MLInt (Z.of_nat k) end.

  Definition do_op c (o : op T) : res (container T) :=
    match o with
    | CreateTuple n v => Ok (make_tuple c n (Some v))
    | CreateRecording n cap v => make_deque c n (Some v) (cap_arg cap)
    | Append n x => append_to c n x
    | Delete n => delitem c n
    end.
  Definition do_ops c (os : list (op T)) : container T :=
    fold_left (fun c o => match do_op c o with Ok c' => c' | Raise _ => c end) os c.

End Connect.
