(** Model of the stack of active contexts: pyfilter/inference/context.py:41-48, 73-96.
    Contexts are identified by numbers (python's default equality is identity), threads as well. *)
From Coq Require Import List Arith.
From Verif.Model Require Import Base.
Import ListNotations.

(** [_contexts = threading.local()] (line 42): every thread has its own attribute [stack], absent at first; the last
    element of the list is the top. *)
Definition stacks : Type := nat -> option (list nat).
Definition no_stacks : stacks := fun _ => None.
Definition put_stack (w : stacks) (t : nat) (s : list nat) : stacks := fun u => if u =? t then Some s else w u.

(** What threads do.  [Leave c e]: the end of a [with] block, reached with exception [e] if any. *)
Inductive event : Type := New | Enter (c : nat) | Leave (c : nat) (e : option exn) | Ask.

(** [list.remove]: the first occurrence; ValueError if there is none. *)
Fixpoint list_remove (c : nat) (s : list nat) : option (list nat) :=
  match s with
  | [] => None
  | d :: r => if d =? c then Some r else option_map (cons d) (list_remove c r)
  end.

(** Lines 44-48 __new__, 77-79 __enter__, 81-85 __exit__, 87-96 get_context, executed by thread [t]: the new stacks and
    the outcome ([None] is returned by the first three). *)
Definition perform (w : stacks) (t : nat) (ev : event) : stacks * res (option nat) :=
  match ev with
  | New => match w t with None => (put_stack w t [], Ok None) | Some _ => (w, Ok None) end
  | Enter c => match w t with None => (w, Raise AttributeError) | Some s => (put_stack w t (s ++ [c]), Ok (Some c)) end
  | Leave c e =>
      match w t with
      | None => (w, Raise AttributeError)
      | Some s =>
          match list_remove c s with
          | None => (w, Raise ValueError)
          | Some s' => (put_stack w t s', match e with Some e => Raise e | None => Ok None end)
          end
      end
  | Ask =>
      match w t with
      | None => (w, Raise AttributeError)
      | Some [] => (w, Raise GenericException)
      | Some s => (w, Ok (Some (last s 0)))
      end
  end.

(** An interleaving of the threads. *)
Definition perform_all (w : stacks) (l : list (nat * event)) : stacks :=
  fold_left (fun w x => fst (perform w (fst x) (snd x))) l w.
