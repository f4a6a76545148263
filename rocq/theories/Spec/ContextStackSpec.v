(** Which context a thread is in, read off its own events. *)
From Coq Require Import List Arith.
From Verif.Model Require Import Base ContextStack.
Import ListNotations.

(** The events of thread [t]. *)
Definition own (t : nat) (l : list (nat * event)) : list event := map snd (filter (fun x => fst x =? t) l).

(** [inside evs opened]: the events of a thread are well nested [with] blocks, entering only contexts it is not in, and
    leave it inside the contexts [opened], innermost first. *)
Inductive inside : list event -> list nat -> Prop :=
| in_start : inside [] []
| in_new : forall evs o, inside evs o -> inside (evs ++ [New]) o
| in_ask : forall evs o, inside evs o -> inside (evs ++ [Ask]) o
| in_enter : forall evs o c, inside evs o -> ~ In c o -> inside (evs ++ [Enter c]) (c :: o)
| in_leave : forall evs o c e, inside evs (c :: o) -> inside (evs ++ [Leave c e]) o.

(** The same without the restriction to contexts the thread is not in. *)
Inductive inside_any : list event -> list nat -> Prop :=
| ia_start : inside_any [] []
| ia_new : forall evs o, inside_any evs o -> inside_any (evs ++ [New]) o
| ia_ask : forall evs o, inside_any evs o -> inside_any (evs ++ [Ask]) o
| ia_enter : forall evs o c, inside_any evs o -> inside_any (evs ++ [Enter c]) (c :: o)
| ia_leave : forall evs o c e, inside_any evs (c :: o) -> inside_any (evs ++ [Leave c e]) o.

(** The thread has constructed a context before entering one. *)
Fixpoint creates_first (evs : list event) : Prop :=
  match evs with New :: _ => True | Ask :: r => creates_first r | _ => False end.
Fixpoint never_creates (evs : list event) : Prop :=
  match evs with [] => True | New :: _ => False | _ :: r => never_creates r end.
