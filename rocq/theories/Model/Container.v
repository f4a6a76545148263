(** Model of pyfilter/container.py. *)
From Coq Require Import String Ascii List ZArith Bool.
From Coq Require Import DecimalString.
From Verif.Model Require Import Base.
Import ListNotations.
Open Scope string_scope.

(** ** Python string operations used by the key codec *)

(** [sub in s]. *)
Fixpoint str_contains (sub s : string) : bool :=
  prefix sub s || match s with EmptyString => false | String _ s' => str_contains sub s' end.

(** [s.replace(old, new)] for non-empty [old]: non-overlapping occurrences, left to right.
    [skip] counts the characters of the current occurrence still to be dropped. *)
Fixpoint str_replace_go (old new : string) (skip : nat) (s : string) : string :=
  match s with
  | EmptyString => EmptyString
  | String c s' =>
      match skip with
      | S k => str_replace_go old new k s'
      | O => if prefix old s then new ++ str_replace_go old new (String.length old - 1) s'
             else String c (str_replace_go old new 0 s')
      end
  end.
Definition str_replace (old new s : string) : string := str_replace_go old new 0 s.

(** [s.split("__", 1)] unpacked into two values; [None] is python's ValueError
    "not enough values to unpack" (no separator present). *)
Fixpoint str_drop (n : nat) (s : string) : string :=
  match n, s with
  | O, _ => s
  | S k, String _ s' => str_drop k s'
  | S _, EmptyString => EmptyString
  end.
Fixpoint str_split_once (sep s : string) : option (string * string) :=
  if prefix sep s then Some (EmptyString, str_drop (String.length sep) s)
  else match s with
       | EmptyString => None
       | String c s' => match str_split_once sep s' with
                        | Some (a, b) => Some (String c a, b)
                        | None => None
                        end
       end.

(** [s.split(c)] for a one-character separator. *)
Fixpoint str_split_char (c : ascii) (s : string) : list string :=
  match s with
  | EmptyString => [EmptyString]
  | String d s' =>
      if Ascii.eqb c d then EmptyString :: str_split_char c s'
      else match str_split_char c s' with
           | [] => [String d EmptyString]
           | w :: ws => String d w :: ws
           end
  end.

(** [str(n)] of a non-negative int. *)
Definition str_of_nat (n : nat) : string := NilEmpty.string_of_uint (Nat.to_uint n).

(** [int(s)].  Simplification: only an optional sign followed by ASCII digits is accepted; python also
    accepts surrounding blanks (underscores cannot occur here, the string was split at them). *)
Definition int_of_str (s : string) : option Z :=
  match s with
  | EmptyString => None
  | String c s' =>
      if Ascii.eqb c "-"%char then
        match s' with EmptyString => None | _ =>
          option_map (fun u => (- Z.of_nat (Nat.of_uint u))%Z) (NilEmpty.uint_of_string s') end
      else if Ascii.eqb c "+"%char then
        match s' with EmptyString => None | _ =>
          option_map (fun u => Z.of_nat (Nat.of_uint u)) (NilEmpty.uint_of_string s') end
      else option_map (fun u => Z.of_nat (Nat.of_uint u)) (NilEmpty.uint_of_string s)
  end.

Section Container.
  (** A recorded tensor and its shape. *)
  Context {T : Type}.
  Variable shape : T -> list nat.

  (** ** Bounded deques *)

  (** collections.deque with its [maxlen] ([None]: unbounded). *)
  Record dq := Dq { dq_max : option nat; dq_items : list T }.

  (** The [maxlen] argument: None, a bool or an int. *)
  Inductive maxlen_arg := MLNone | MLBool (b : bool) | MLInt (z : Z).

  (** pyfilter/container.py:10-18 make_dequeue.  A negative int makes [deque(maxlen=...)] raise ValueError. *)
  Definition make_dequeue (m : maxlen_arg) : res dq :=
    match m with
    | MLBool false => Ok (Dq (Some 1) [])
    | MLBool true => Ok (Dq None [])
    | MLNone => Ok (Dq None [])
    | MLInt z => if (z <? 0)%Z then Raise ValueError else Ok (Dq (Some (Z.to_nat z)) [])
    end.

  (** deque.append: append on the right, then drop from the left while too long. *)
  Definition dq_append (d : dq) (x : T) : dq :=
    let items := (dq_items d ++ [x])%list in
    match dq_max d with
    | None => Dq None items
    | Some m => if (length items <=? m)%nat then Dq (Some m) items else Dq (Some m) (tl items)
    end.

  (** deque.extend *)
  Definition dq_extend (d : dq) (xs : list T) : dq := fold_left dq_append xs d.

  (** ** TensorContainer *)

  (** pyfilter/container.py:29-41: the two ordered dictionaries. *)
  Record container := Cont { c_tuples : odict (list T); c_deques : odict dq }.
  Definition empty_container : container := Cont [] [].

  (** pyfilter/container.py:43-51 make_tuple *)
  Definition make_tuple (c : container) (name : string) (values : option (list T)) : container :=
    Cont (od_set name (match values with Some v => v | None => [] end) (c_tuples c)) (c_deques c).

  (** pyfilter/container.py:53-64 make_deque (evaluates make_dequeue first: on error nothing is stored). *)
  Definition make_deque (c : container) (name : string) (values : option (list T)) (m : maxlen_arg)
    : res container :=
    let! d := make_dequeue m in
    let d' := match values with Some v => dq_extend d v | None => d end in
    Ok (Cont (c_tuples c) (od_set name d' (c_deques c))).

  (** pyfilter/container.py:29-41 __init__ with keyword arguments: None values are skipped. *)
  Definition container_init (kwargs : odict (option (list T))) : container :=
    fold_left (fun c kv => match snd kv with Some v => make_tuple c (fst kv) (Some v) | None => c end)
      kwargs empty_container.

  (** pyfilter/container.py:81-87 __getitem__ *)
  Definition getitem (c : container) (key : string) : res (list T) :=
    match od_get key (c_tuples c) with
    | Some v => Ok v
    | None => match od_get key (c_deques c) with
              | Some d => Ok (dq_items d)
              | None => Raise GenericException
              end
    end.

  (** pyfilter/container.py:89-90 __setitem__ *)
  Definition setitem (c : container) (key : string) (v : list T) : res container := Raise GenericException.

  (** pyfilter/container.py:92-96 __delitem__ *)
  Definition delitem (c : container) (key : string) : res container :=
    if od_mem key (c_tuples c) then Ok (Cont (od_del key (c_tuples c)) (c_deques c))
    else if od_mem key (c_deques c) then Ok (Cont (c_tuples c) (od_del key (c_deques c)))
    else Raise KeyError.

  (** [container[key].append(x)], as done in pyfilter/filters/result.py:127-128.
      Simplification: appending to a tuple raises AttributeError in python, as here. *)
  Definition append_to (c : container) (key : string) (x : T) : res container :=
    if od_mem key (c_tuples c) then Raise AttributeError
    else match od_get key (c_deques c) with
         | Some d => Ok (Cont (c_tuples c) (od_set key (dq_append d x) (c_deques c)))
         | None => Raise GenericException
         end.

  (** pyfilter/container.py:98-99 __len__, 101-102/110-111 __iter__/keys, 104-105 __contains__, 107-108 values *)
  Definition clen (c : container) : nat := (length (c_tuples c) + length (c_deques c))%nat.
  Definition ckeys (c : container) : list string := (od_keys (c_tuples c) ++ od_keys (c_deques c))%list.
  Definition ccontains (c : container) (key : string) : bool :=
    od_mem key (c_tuples c) || od_mem key (c_deques c).
  Definition cvalues (c : container) : list (list T) :=
    (od_values (c_tuples c) ++ map dq_items (od_values (c_deques c)))%list.

  (** torch.stack requires equal shapes (RuntimeError otherwise). *)
  Definition same_shapes (xs : list T) : bool :=
    match xs with
    | [] => true
    | x :: r => forallb (fun y => if list_eq_dec Nat.eq_dec (shape x) (shape y) then true else false) r
    end.

  (** pyfilter/container.py:66-79 get_as_tensor.  The stacked tensor is represented by the list of its rows;
      [torch.tensor([])] by the empty list. *)
  Definition get_as_tensor (c : container) (key : string) : res (list T) :=
    let! to_stack := getitem c key in
    match to_stack with
    | [] => Ok []
    | _ => if same_shapes to_stack then Ok to_stack else Raise RuntimeError
    end.

  (** pyfilter/container.py:26-27, 117, 121: the key format. *)
  Definition tuple_key (name : string) : string := "tensor_" ++ "tuple" ++ "__" ++ name.
  Definition maxlen_str (m : option nat) : string :=
    match m with None => "None" | Some k => str_of_nat k end.
  Definition deque_key (m : option nat) (name : string) : string :=
    "tensor_" ++ ("deque_" ++ maxlen_str m) ++ "__" ++ name.

  (** pyfilter/container.py:113-123 state_dict *)
  Fixpoint sd_tuples (c : container) (todo : odict (list T)) (sd : odict (list T)) : res (odict (list T)) :=
    match todo with
    | [] => Ok sd
    | (k, _) :: r => let! v := get_as_tensor c k in sd_tuples c r (od_set (tuple_key k) v sd)
    end.
  Fixpoint sd_deques (c : container) (todo : odict dq) (sd : odict (list T)) : res (odict (list T)) :=
    match todo with
    | [] => Ok sd
    | (k, d) :: r => let! v := get_as_tensor c k in sd_deques c r (od_set (deque_key (dq_max d) k) v sd)
    end.
  Definition state_dict (c : container) : res (odict (list T)) :=
    let! sd := sd_tuples c (c_tuples c) [] in sd_deques c (c_deques c) sd.

  (** pyfilter/container.py:133-139: one iteration of the loading loop, after the pop. *)
  Definition load_entry (c : container) (k : string) (v : list T) : res container :=
    match str_split_once "__" (str_replace "tensor_" "" k) with
    | None => Raise ValueError
    | Some (type_, name) =>
        if String.eqb type_ "tuple" then Ok (make_tuple c name (Some v))
        else if prefix "deque" type_ then
          match str_split_char "_"%char type_ with
          | [_; m] =>
              if String.eqb m "None" then make_deque c name (Some v) MLNone
              else match int_of_str m with
                   | Some z => make_deque c name (Some v) (MLInt z)
                   | None => Raise ValueError
                   end
          | _ => Raise ValueError
          end
        else Ok c
    end.

  (** pyfilter/container.py:131-139: the loop.  [state_dict.pop(k)] removes the entry from the *caller's*
      dictionary before it is interpreted; on an exception the container and the dictionary stay as they
      are at that point (third component). *)
  Fixpoint load_keys (keys : list string) (c : container) (sd : odict (list T))
    : container * odict (list T) * option exn :=
    match keys with
    | [] => (c, sd, None)
    | k :: r =>
        match od_get k sd with
        | None => (c, sd, Some KeyError)
        | Some v =>
            let sd' := od_del k sd in
            match load_entry c k v with
            | Ok c' => load_keys r c' sd'
            | Raise e => (c, sd', Some e)
            end
        end
    end.

  (** pyfilter/container.py:125-139 load_state_dict *)
  Definition load_filter (k : string) : bool := str_contains "tensor_tuple" k || str_contains "tensor_deque" k.
  Definition load_state_dict (c : container) (sd : odict (list T)) : container * odict (list T) * option exn :=
    load_keys (filter load_filter (od_keys sd)) c sd.
End Container.
Arguments dq T : clear implicits.
Arguments container T : clear implicits.
