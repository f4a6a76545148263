(** Common vocabulary of the model: python exceptions as values, ordered dictionaries. *)
From Coq Require Import String List.
Import ListNotations.

(** The exception classes that the modelled functions can raise.  [GenericException] is the bare
    [Exception(...)] used in pyfilter/container.py:87,90 and elsewhere. *)
Inductive exn : Type :=
| AssertionError | ValueError | NotImplementedError | IndexError | KeyError | TypeError
| AttributeError | RuntimeError | GenericException
| NotSamePriorError | ParameterDoesNotExist | BatchShapeNotSet | BatchShapeAlreadySet
| TooManyIncreases | ZeroDivisionError.

(** Result of a python call: a value or a raised exception. *)
Inductive res (A : Type) : Type :=
| Ok (a : A)
| Raise (e : exn).
Arguments Ok {A} a.
Arguments Raise {A} e.

Definition bind {A B} (x : res A) (f : A -> res B) : res B :=
  match x with Ok a => f a | Raise e => Raise e end.

Notation "'let!' x ':=' e 'in' b" := (bind e (fun x => b)) (at level 200, x pattern, e at level 100, b at level 200).

(** Python's [dict]/[OrderedDict] with string keys: insertion ordered association list.
    Assignment to an existing key keeps its position; assignment to a new key appends. *)
Section ODict.
  Context {V : Type}.
  Definition odict := list (string * V).

  Fixpoint od_get (k : string) (d : odict) : option V :=
    match d with
    | [] => None
    | (k', v) :: r => if String.eqb k k' then Some v else od_get k r
    end.

  Fixpoint od_set (k : string) (v : V) (d : odict) : odict :=
    match d with
    | [] => [(k, v)]
    | (k', v') :: r => if String.eqb k k' then (k', v) :: r else (k', v') :: od_set k v r
    end.

  Fixpoint od_del (k : string) (d : odict) : odict :=
    match d with
    | [] => []
    | (k', v') :: r => if String.eqb k k' then r else (k', v') :: od_del k r
    end.

  Definition od_mem (k : string) (d : odict) : bool :=
    match od_get k d with Some _ => true | None => false end.

  Definition od_keys (d : odict) : list string := map fst d.
  Definition od_values (d : odict) : list V := map snd d.
End ODict.
Arguments odict V : clear implicits.
