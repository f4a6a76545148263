(** What a user sees of the contexts of a program, and contracts of the libraries used. *)
From Coq Require Import List Bool Arith String.
From Verif.Model Require Import Base Xf Prior Context.
Import ListNotations.
Local Open Scope list_scope.
Local Open Scope nat_scope.

(** [context.batch_shape], [context.parameters], [context.get_prior]. *)
Definition ctx_at (w : world) (c : nat) : ctx := nth c (w_ctxs w) (empty_ctx None).
Definition exists_ctx (w : world) (c : nat) : Prop := c < List.length (w_ctxs w).
Definition batch_of (w : world) (c : nat) : option (list nat) := x_batch (ctx_at w c).
Definition names (w : world) (c : nat) : list string := map fst (x_params (ctx_at w c)).
Definition priors (w : world) (c : nat) : list string := map fst (x_priors (ctx_at w c)).
Definition param_id (w : world) (c : nat) (n : string) : option nat := od_get n (x_params (ctx_at w c)).
Definition prior_at (w : world) (c : nat) (n : string) : option dist := od_get n (x_priors (ctx_at w c)).
Definition verifies (w : world) (c : nat) : bool := x_verify (ctx_at w c).
(** The current value of a parameter. *)
Definition value_at (w : world) (p : nat) : tensor := nth (po_data (nth p (w_objs w) no_obj)) (w_data w) no_tensor.
Definition value (w : world) (c : nat) (n : string) : option tensor := option_map (value_at w) (param_id w c n).
(** Entry [b] of a parameter. *)
Definition entry (w : world) (c : nat) (n : string) (b : nat) : option (list xf) :=
  match value w c n with Some t => nth_error (t_rows t) b | None => None end.

(** Everything observable of a context. *)
Definition same_context (w w' : world) (c : nat) : Prop :=
  batch_of w' c = batch_of w c /\ names w' c = names w c /\ priors w' c = priors w c /\ verifies w' c = verifies w c /\
  forall n, param_id w' c n = param_id w c n /\ prior_at w' c n = prior_at w c n /\ value w' c n = value w c n.

(** [prior.sample(batch_shape)]: one sample for each entry of the batch, of the right size. *)
Definition sampler_ok (sample : nat -> dist -> nat -> list (list xf)) : Prop :=
  forall r d n, List.length (sample r d n) = n /\
    Forall (fun row => List.length row = prod_list (d_event d)) (sample r d n).

Definition finite (a : xf) : Prop := exists r, a = Fin r.
(** [biject_to(support)] is a bijection between the vectors of its unconstrained size and the support. *)
Definition bijection_ok (d : dist) : Prop :=
  (forall row, List.length row = prod_list (d_event d) -> d_support d row = true ->
     List.length (d_inv d row) = prod_list (d_uevent d) /\ d_fwd d (d_inv d row) = row) /\
  (forall u, List.length u = prod_list (d_uevent d) -> Forall finite u ->
     List.length (d_fwd d u) = prod_list (d_event d) /\ d_support d (d_fwd d u) = true /\ d_inv d (d_fwd d u) = u).

(** Histories of calls that do not load dictionaries, and those registering unbatched priors only. *)
Definition no_load (o : op) : Prop := match o with OLoad _ _ => False | _ => True end.
Definition unbatched (o : op) : Prop := match o with ORegister _ _ d => d_batched d = false | _ => True end.
Definition bijective (o : op) : Prop := match o with ORegister _ _ d => bijection_ok d | _ => True end.
(** The context a call works on. *)
Definition target (o : op) : option nat :=
  match o with
  | ONew _ | OCopy _ => None
  | OShape c _ | ORegister c _ _ | OUnstack c _ _ _ | OResample c _ | OExchange c _ _ | OLoad c _ | OVerify c _ => Some c
  end.

(** The calls of a history with their outcomes. *)
Fixpoint outcomes (sample : nat -> dist -> nat -> list (list xf)) (l : list op) (w : world) : list (op * res (option nat)) :=
  match l with [] => [] | o :: r => (o, snd (perform sample o w)) :: outcomes sample r (fst (perform sample o w)) end.
(** The names first registered with success in a context, in that order, [known] being there before. *)
Fixpoint first_registrations (c : nat) (known : list string) (l : list (op * res (option nat))) : list string :=
  match l with
  | [] => known
  | (ORegister c' n _, Ok _) :: r =>
      first_registrations c (if (c' =? c) && negb (existsb (String.eqb n) known) then known ++ [n] else known) r
  | _ :: r => first_registrations c known r
  end.
(** The first shape set with success. *)
Fixpoint first_shape (c : nat) (l : list (op * res (option nat))) : option (list nat) :=
  match l with
  | [] => None
  | (OShape c' s, Ok _) :: r => if c' =? c then Some s else first_shape c r
  | _ :: r => first_shape c r
  end.

(** The rows of a parameter, one for each entry of the batch. *)
Definition rows_of (w : world) (c : nat) (n : string) : list (list xf) := match value w c n with Some t => t_rows t | None => [] end.
(** The parts of the names stand side by side in each row of the matrix. *)
Definition laid_out (ns : list string) (part : string -> nat -> list xf) (x : list (list xf)) : Prop :=
  forall b, b < List.length x -> nth b x [] = List.concat (map (fun n => part n b) ns).
(** The number of entries of the batch of a context. *)
Definition batch_size (w : world) (c : nat) : nat := match batch_of w c with Some b => prod_list b | None => 0 end.
(** The size of one sample of a parameter. *)
Definition size_of (w : world) (c : nat) (constrained : bool) (n : string) : nat :=
  match prior_at w c n with Some d => prod_list (if constrained then d_event d else d_uevent d) | None => 0 end.
Definition total_size (w : world) (c : nat) (constrained : bool) : nat := list_sum (map (size_of w c constrained) (names w c)).
(** Only the values of parameters may differ. *)
Definition same_tables (w w' : world) : Prop := w_ctxs w' = w_ctxs w /\ w_objs w' = w_objs w /\ w_rnd w' = w_rnd w.
(** The sample of entry [b] of a parameter, mapped to the unconstrained space or not. *)
Definition part_of (w : world) (c : nat) (constrained : bool) (n : string) (b : nat) : list xf :=
  let row := nth b (rows_of w c n) [] in
  if constrained then row else match prior_at w c n with Some d => d_inv d row | None => [] end.

(** The calls made by a program, each with the state it is made in and whether it is made within a
    [with c.no_prior_verification()] block of context [c]. *)
Fixpoint visited (sample : nat -> dist -> nat -> list (list xf)) (c : nat) (inside : bool) (p : prog) (w : world) : list (bool * world * op) :=
  match p with
  | Do o => [(inside, w, o)]
  | Seq p q => visited sample c inside p w ++ match run sample p w with (w', Ok _) => visited sample c inside q w' | (_, Raise _) => [] end
  | Try p => visited sample c inside p w
  | Block c' p => visited sample c (inside || (c' =? c)) p (fst (set_verify c' false w))
  end.
(** The flag is set by blocks only. *)
Fixpoint flag_untouched (p : prog) : Prop :=
  match p with
  | Do (OVerify _ _) => False
  | Do _ => True
  | Seq p q => flag_untouched p /\ flag_untouched q
  | Try p => flag_untouched p
  | Block _ p => flag_untouched p
  end.
(** No block of [c] within a block of [c]. *)
Fixpoint not_nested (c : nat) (inside : bool) (p : prog) : Prop :=
  match p with
  | Do _ => True
  | Seq p q => not_nested c inside p /\ not_nested c inside q
  | Try p => not_nested c inside p
  | Block c' p => (c' = c -> inside = false) /\ not_nested c (inside || (c' =? c)) p
  end.

(** The tensor in a storage. *)
Definition storage (w : world) (a : nat) : tensor := nth a (w_data w) no_tensor.
Definition no_nan (v : list xf) : Prop := Forall (fun a => a <> NaN) v.
(** The saved values of the arguments of the priors are those of the context's priors, none being NaN. *)
Definition same_prior_arguments (w : world) (c : nat) (s : saved) : Prop :=
  forall n d k v, prior_at w c n = Some d -> In (k, v) (d_args d) ->
    no_nan v /\ exists args, od_get n (sv_priors s) = Some args /\ od_get k args = Some v.

(** The log density, under the prior of the parameter, of its sample in entry [b]: of the sample itself, or of its
    unconstrained version under the unconstrained prior. *)
Definition log_density (w : world) (c : nat) (constrained : bool) (b : nat) (n : string) : xf :=
  match prior_at w c n, entry w c n b with
  | Some d, Some row => if constrained then d_logp d row else d_ulogp d (d_inv d row)
  | _, _ => NaN
  end.
