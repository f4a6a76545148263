(** Model of pyfilter/inference/context.py (InferenceContext) and of the update of parameters in
    pyfilter/inference/parameter.py.
    Tensors live in a heap: a PriorBoundParameter is an object pointing to its storage ([.data]); state_dict hands out
    the storage itself (line 297) and load_state_dict makes parameters point to the given one (line 321).
    Simplifications: batch dimensions are flattened (a parameter is a list of rows, one per batch entry, each the
    flattened sample), so resampling is that of contexts with one batch dimension; [copy_] does not broadcast; indices are not negative; device and dtype are left out.
    An operation returns the world it leaves behind also when it raises. *)
From Coq Require Import Reals List Bool Arith String.
From Verif.Model Require Import Base Xf Prior.
Import ListNotations.
Local Open Scope list_scope.
Local Open Scope nat_scope.

Definition prod_list (s : list nat) : nat := fold_right Nat.mul 1 s.

Record tensor : Type := Tensor { t_batch : list nat; t_event : list nat; t_rows : list (list xf) }.

(** A PriorBoundParameter: parameter.py:25-48 (context, name) and its storage. *)
Record pobj : Type := PObj { po_ctx : nat; po_name : string; po_data : nat }.

(** context.py:50-63 and 382-392 ([x_quasi]: randomize, for a QuasiInferenceContext). *)
Record ctx : Type := Ctx {
  x_batch : option (list nat); x_priors : odict dist; x_params : odict nat;
  x_shapes : odict (list nat); x_ushapes : odict (list nat); x_verify : bool; x_quasi : option bool
}.
Definition empty_ctx (quasi : option bool) : ctx := Ctx None [] [] [] [] true quasi.

Record world : Type := World { w_data : list tensor; w_objs : list pobj; w_ctxs : list ctx; w_rnd : nat }.

(** An operation. *)
Definition act (A : Type) : Type := world -> world * res A.
Definition ret {A} (a : A) : act A := fun w => (w, Ok a).
Definition raise {A} (e : exn) : act A := fun w => (w, Raise e).
Definition abind {A B} (m : act A) (f : A -> act B) : act B :=
  fun w => match m w with (w', Ok a) => f a w' | (w', Raise e) => (w', Raise e) end.
Notation "'do!' x '<-' m 'in' b" := (abind m (fun x => b)) (at level 200, x pattern, m at level 100, b at level 200).
Definition lift {A} (x : res A) : act A := fun w => (w, x).
(** A python [for] loop. *)
Fixpoint for_each {A} (l : list A) (f : A -> act unit) : act unit :=
  match l with [] => ret tt | a :: r => do! _ <- f a in for_each r f end.

Fixpoint replace_nth {A} (n : nat) (a : A) (l : list A) : list A :=
  match l, n with
  | [], _ => []
  | _ :: r, O => a :: r
  | b :: r, S n => b :: replace_nth n a r
  end.
Definition no_tensor : tensor := Tensor [] [] [].
Definition no_obj : pobj := PObj 0 EmptyString 0.

Definition get_ctx (c : nat) : act ctx := fun w => (w, Ok (nth c (w_ctxs w) (empty_ctx None))).
Definition put_ctx (c : nat) (x : ctx) : act unit :=
  fun w => (World (w_data w) (w_objs w) (replace_nth c x (w_ctxs w)) (w_rnd w), Ok tt).
Definition new_ctx (x : ctx) : act nat :=
  fun w => (World (w_data w) (w_objs w) (w_ctxs w ++ [x]) (w_rnd w), Ok (List.length (w_ctxs w))).
Definition get_obj (p : nat) : act pobj := fun w => (w, Ok (nth p (w_objs w) no_obj)).
Definition put_obj (p : nat) (o : pobj) : act unit :=
  fun w => (World (w_data w) (replace_nth p o (w_objs w)) (w_ctxs w) (w_rnd w), Ok tt).
Definition new_obj (o : pobj) : act nat :=
  fun w => (World (w_data w) (w_objs w ++ [o]) (w_ctxs w) (w_rnd w), Ok (List.length (w_objs w))).
Definition get_data (a : nat) : act tensor := fun w => (w, Ok (nth a (w_data w) no_tensor)).
Definition put_data (a : nat) (t : tensor) : act unit :=
  fun w => (World (replace_nth a t (w_data w)) (w_objs w) (w_ctxs w) (w_rnd w), Ok tt).
Definition new_data (t : tensor) : act nat :=
  fun w => (World (w_data w ++ [t]) (w_objs w) (w_ctxs w) (w_rnd w), Ok (List.length (w_data w))).

(** The value of a parameter. *)
Definition param_value (p : nat) : act tensor := do! o <- get_obj p in get_data (po_data o).
(** [p.data = a] (context.py:321). *)
Definition set_data (p a : nat) : act unit := do! o <- get_obj p in put_obj p (PObj (po_ctx o) (po_name o) a).
(** [p.copy_(value)]: in place. *)
Definition copy_rows (p : nat) (rows : list (list xf)) : act unit :=
  do! o <- get_obj p in
  do! t <- get_data (po_data o) in
  if (List.length rows =? List.length (t_rows t)) && forallb (fun r => List.length r =? prod_list (t_event t)) rows
  then put_data (po_data o) (Tensor (t_batch t) (t_event t) rows)
  else raise RuntimeError.

Section Context.
  (** [sample r d n]: [n] samples from [d] at position [r] of the random stream. *)
  Variable sample : nat -> dist -> nat -> list (list xf).

  Definition draw (d : dist) (batch : list nat) : act (list (list xf)) :=
    fun w => (World (w_data w) (w_objs w) (w_ctxs w) (S (w_rnd w)), Ok (sample (w_rnd w) d (prod_list batch))).

  (** context.py:112-127. *)
  Definition set_batch_shape (c : nat) (batch : list nat) : act unit :=
    do! x <- get_ctx c in
    match x_batch x with
    | None => put_ctx c (Ctx (Some batch) (x_priors x) (x_params x) (x_shapes x) (x_ushapes x) (x_verify x) (x_quasi x))
    | Some b => if list_eq_dec Nat.eq_dec b batch then ret tt else raise BatchShapeAlreadySet
    end.

  (** context.py:172-183. *)
  Definition get_parameter (c : nat) (name : string) : act nat :=
    do! x <- get_ctx c in
    match od_get name (x_params x) with Some p => ret p | None => raise ParameterDoesNotExist end.

  (** context.py:156-170: registration of a new name. *)
  Definition register (c : nat) (name : string) (prior : dist) (batch : list nat) : act nat :=
    do! x <- get_ctx c in
    do! _ <- put_ctx c (Ctx (x_batch x) (od_set name prior (x_priors x)) (x_params x) (x_shapes x) (x_ushapes x) (x_verify x) (x_quasi x)) in
    if d_batched prior then raise AssertionError else
    do! v <- draw prior batch in
    do! a <- new_data (Tensor batch (d_event prior) v) in
    do! p <- new_obj (PObj c name a) in
    do! x <- get_ctx c in
    do! _ <- put_ctx c (Ctx (x_batch x) (x_priors x) (od_set name p (x_params x)) (od_set name (d_event prior) (x_shapes x))
                          (od_set name (d_uevent prior) (x_ushapes x)) (x_verify x) (x_quasi x)) in
    ret p.
  (** context.py:136-170. *)
  Definition named_parameter (c : nat) (name : string) (prior : dist) : act nat :=
    do! x <- get_ctx c in
    match x_batch x with
    | None => raise BatchShapeNotSet
    | Some batch =>
        match od_get name (x_priors x) with
        | Some known =>
            if x_verify x then
              do! same <- lift (equivalent_to known prior) in
              if same then get_parameter c name else raise NotSamePriorError
            else get_parameter c name
        | None => register c name prior batch
        end
    end.

  (** context.py:193-210.  [torch.cat] needs at least one tensor; parameters whose batch sizes differ cannot be joined. *)
  Fixpoint join_rows (l : list (list (list xf))) (n : nat) : res (list (list xf)) :=
    match l with
    | [] => Ok (repeat [] n)
    | v :: r =>
        let! rest := join_rows r n in
        if List.length v =? n then Ok (map (fun p => fst p ++ snd p) (combine v rest)) else Raise RuntimeError
    end.
  Fixpoint collect {A B} (l : list A) (f : A -> act B) : act (list B) :=
    match l with [] => ret [] | a :: r => do! b <- f a in do! bs <- collect r f in ret (b :: bs) end.
  (** [p.prior] of parameter.py:51-56. *)
  Definition prior_of (p : nat) : act dist :=
    do! o <- get_obj p in
    do! x <- get_ctx (po_ctx o) in
    match od_get (po_name o) (x_priors x) with Some d => ret d | None => raise AttributeError end.
  Definition stack_parameters (c : nat) (constrained : bool) : act (list (list xf)) :=
    do! x <- get_ctx c in
    do! vs <- collect (x_params x) (fun np =>
      do! t <- param_value (snd np) in
      if constrained then ret (t_rows t) else do! d <- prior_of (snd np) in ret (map (d_inv d) (t_rows t))) in
    match vs with
    | [] => raise RuntimeError
    | v :: _ => lift (join_rows vs (List.length v))
    end.

  (** parameter.py:68-87 update_values_, for the rows of one parameter. *)
  Definition update_values (p : nat) (rows : list (list xf)) (constrained : bool) : act unit :=
    do! d <- prior_of p in
    if constrained
    then if forallb (d_support d) rows then copy_rows p rows else raise ValueError
    else copy_rows p (map (d_fwd d) rows).

  (** context.py:212-220 _apply_to_params: columns [index, index + numel) go to the next parameter. *)
  Definition columns (index n : nat) (x : list (list xf)) : list (list xf) := map (fun r => firstn n (skipn index r)) x.
  Fixpoint apply_to_params (l : odict nat) (shapes : odict (list nat)) (x : list (list xf)) (index : nat)
    (f : nat -> list (list xf) -> act unit) : act unit :=
    match l with
    | [] => ret tt
    | (n, p) :: r =>
        match od_get n shapes with
        | None => raise KeyError
        | Some s => do! _ <- f p (columns index (prod_list s) x) in apply_to_params r shapes x (index + prod_list s) f
        end
    end.
  (** context.py:222-236.  [width]: [x.shape[-1]]. *)
  Definition total_length (shapes : odict (list nat)) : nat := fold_right Nat.add 0 (map prod_list (od_values shapes)).
  Definition unstack_parameters (c : nat) (width : nat) (x : list (list xf)) (constrained : bool) : act unit :=
    do! cx <- get_ctx c in
    let shapes := if constrained then x_shapes cx else x_ushapes cx in
    if total_length shapes =? width
    then apply_to_params (x_params cx) shapes x 0 (fun p rows => update_values p rows constrained)
    else raise AssertionError.

  (** context.py:255-271: [masked_scatter_] takes the elements of the source one after the other.  Simplified: a mask of
      another length than the parameter is refused (a mask of length one would be broadcast), and with too few elements
      nothing is written (torch may have written some). *)
  Fixpoint scatter (mask : list bool) (old : list (list xf)) (source : list xf) : res (list (list xf)) :=
    match mask, old with
    | b :: m, row :: o =>
        if b then
          if List.length source <? List.length row then Raise RuntimeError
          else let! r := scatter m o (skipn (List.length row) source) in Ok (firstn (List.length row) source :: r)
        else let! r := scatter m o source in Ok (row :: r)
    | _, _ => Ok old
    end.
  Definition select {A} (mask : list bool) (l : list A) : list A := map snd (filter fst (combine mask l)).
  Definition exchange (c other : nat) (mask : list bool) : act unit :=
    do! x <- get_ctx c in
    for_each (x_params x) (fun np =>
      do! q <- get_parameter other (fst np) in
      do! t <- param_value q in
      if List.length mask =? List.length (t_rows t) then
        do! o <- param_value (snd np) in
        if List.length mask =? List.length (t_rows o)
        then do! rows <- lift (scatter mask (t_rows o) (List.concat (select mask (t_rows t)))) in copy_rows (snd np) rows
        else raise RuntimeError
      else raise IndexError).

  (** context.py:273-282. *)
  Fixpoint gather_rows (l : list (list xf)) (idx : list nat) : res (list (list xf)) :=
    match idx with
    | [] => Ok []
    | i :: r => match nth_error l i with
                | None => Raise IndexError
                | Some v => let! vs := gather_rows l r in Ok (v :: vs)
                end
    end.
  Definition resample (c : nat) (idx : list nat) : act unit :=
    do! x <- get_ctx c in
    for_each (x_params x) (fun np =>
      do! t <- param_value (snd np) in
      do! rows <- lift (gather_rows (t_rows t) idx) in
      copy_rows (snd np) rows).

  (** context.py:291-302: the storages themselves and the arguments of the priors. *)
  Record saved : Type := Saved { sv_params : odict nat; sv_priors : odict (odict (list xf)) }.
  Definition state_dict (c : nat) : act saved :=
    do! x <- get_ctx c in
    do! ps <- collect (x_params x) (fun np => do! o <- get_obj (snd np) in ret (fst np, po_data o)) in
    ret (Saved ps (map (fun nd => (fst nd, d_args (snd nd))) (x_priors x))).

  (** context.py:304-321. *)
  Definition same_keys {A B} (a : odict A) (b : odict B) : bool :=
    forallb (fun k => od_mem k b) (od_keys a) && forallb (fun k => od_mem k a) (od_keys b).
  Definition load_state_dict (c : nat) (s : saved) : act unit :=
    do! x <- get_ctx c in
    if same_keys (x_params x) (sv_params s) then
      for_each (x_priors x) (fun kd =>
        do! _ <- for_each (d_args (snd kd)) (fun na =>
          match od_get (fst kd) (sv_priors s) with
          | None => raise KeyError
          | Some args =>
              match od_get (fst na) args with
              | None => raise KeyError
              | Some v => do! eq <- lift (all_eq (snd na) v) in if eq then ret tt else raise AssertionError
              end
          end) in
        do! p <- get_parameter c (fst kd) in
        match od_get (fst kd) (sv_params s) with
        | None => raise KeyError
        | Some a => set_data p a
        end)
    else raise AssertionError.

  (** context.py:323-351.  [f]: a function of the cloned parameter; the distributions are copied (they are values here). *)
  Definition full_shape (t : tensor) : list nat := t_batch t ++ t_event t.
  Definition apply_fun (c : nat) (f : tensor -> tensor) : act nat :=
    do! x <- get_ctx c in
    do! temp <- collect (x_priors x) (fun kd =>
      do! p <- get_parameter c (fst kd) in
      do! t <- param_value p in
      match od_get (fst kd) (x_shapes x) with
      | None => raise KeyError
      | Some s => let t' := f t in
                  let sh := full_shape t' in
                  ret (firstn (List.length sh - List.length s) sh, fst kd, snd kd, t')
      end) in
    match temp with
    | [] => raise IndexError
    | (batch, _, _, _) :: _ =>
        if forallb (fun q => let '(b, _, _, _) := q in if list_eq_dec Nat.eq_dec batch b then true else false) temp then
          do! new <- new_ctx (empty_ctx (x_quasi x)) in
          do! _ <- set_batch_shape new batch in
          do! _ <- for_each temp (fun q => let '(_, k, d, t') := q in
            do! p <- named_parameter new k d in copy_rows p (t_rows t')) in
          ret new
        else raise AssertionError
    end.
  (** context.py:353-358. *)
  Definition copy (c : nat) : act nat := apply_fun c (fun t => t).

  (** context.py:370 and 373: entering and leaving no_prior_verification. *)
  Definition set_verify (c : nat) (b : bool) : act unit :=
    do! x <- get_ctx c in
    put_ctx c (Ctx (x_batch x) (x_priors x) (x_params x) (x_shapes x) (x_ushapes x) b (x_quasi x)).

  (** context.py:360-373: a [with] block. *)
  Definition no_prior_verification {A} (c : nat) (body : act A) : act A :=
    fun w => let (w', r) := (do! _ <- set_verify c false in body) w in (fst (set_verify c true w'), r).

  (** context.py:245-253 (python's [sum] starts from the number 0) and parameter.py:96-107. *)
  Definition eval_prior (p : nat) (constrained : bool) : act (list xf) :=
    do! t <- param_value p in
    do! d <- prior_of p in
    ret (if constrained then map (d_logp d) (t_rows t) else map (fun r => d_ulogp d (d_inv d r)) (t_rows t)).
  Fixpoint add_rows (x y : list xf) : res (list xf) :=
    match x, y with
    | [], [] => Ok []
    | a :: x, b :: y => let! r := add_rows x y in Ok (xadd a b :: r)
    | _, _ => Raise RuntimeError
    end.
  Fixpoint sum_from (acc : list xf) (l : list (list xf)) : res (list xf) :=
    match l with [] => Ok acc | v :: r => let! acc' := add_rows acc v in sum_from acc' r end.
  (** [None]: the number 0 of a context without parameters. *)
  Definition eval_priors (c : nat) (constrained : bool) : act (option (list xf)) :=
    do! x <- get_ctx c in
    do! vs <- collect (x_params x) (fun np => eval_prior (snd np) constrained) in
    match vs with
    | [] => ret None
    | v :: r => do! s <- lift (sum_from (map (xadd (Fin 0)) v) r) in ret (Some s)
    end.

  (** The operations of the API on the contexts of a program. *)
  Inductive op : Type :=
  | ONew (quasi : option bool) | OShape (c : nat) (s : list nat) | ORegister (c : nat) (n : string) (d : dist)
  | OUnstack (c width : nat) (x : list (list xf)) (constrained : bool) | OResample (c : nat) (idx : list nat)
  | OExchange (c other : nat) (mask : list bool) | OLoad (c : nat) (s : saved) | OCopy (c : nat)
  | OVerify (c : nat) (b : bool).
  (** The context or parameter returned, if any. *)
  Definition perform (o : op) : act (option nat) :=
    match o with
    | ONew q => do! c <- new_ctx (empty_ctx q) in ret (Some c)
    | OShape c s => do! _ <- set_batch_shape c s in ret None
    | ORegister c n d => do! p <- named_parameter c n d in ret (Some p)
    | OUnstack c k x b => do! _ <- unstack_parameters c k x b in ret None
    | OResample c idx => do! _ <- resample c idx in ret None
    | OExchange c o m => do! _ <- exchange c o m in ret None
    | OLoad c s => do! _ <- load_state_dict c s in ret None
    | OCopy c => do! n <- copy c in ret (Some n)
    | OVerify c b => do! _ <- set_verify c b in ret None
    end.
  (** The world left behind by a sequence of calls, exceptions being caught by the caller. *)
  Definition history (l : list op) (w : world) : world := fold_left (fun w o => fst (perform o w)) l w.

  (** Programs with [with c.no_prior_verification()] blocks and [try ... except: pass]. *)
  Inductive prog : Type := Do (o : op) | Seq (p q : prog) | Try (p : prog) | Block (c : nat) (p : prog).
  Fixpoint run (p : prog) : act (option nat) :=
    match p with
    | Do o => perform o
    | Seq p q => do! _ <- run p in run q
    | Try p => fun w => let (w', r) := run p w in (w', match r with Ok a => Ok a | Raise _ => Ok None end)
    | Block c p => no_prior_verification c (run p)
    end.
End Context.
Definition no_world : world := World [] [] [] 0.
