(** Model of pyfilter/inference/plot.py. *)
From Coq Require Import Reals List Bool String Arith DecimalString.
From Verif.Model Require Import Base Xf Weights Prior Context.
Import ListNotations.
Local Open Scope nat_scope.

Section Plot.
  (** The curves drawn, and what statsmodels' kernel density estimate draws for values and weights (plot.py:18-23, including [v.min()],
      [v.max()] and the grid), which may raise (e.g. RuntimeError if all values are equal).  [lowest]: see Weights.v. *)
  Context {C : Type} (kde : list xf -> list xf -> res C) (lowest : R).

  (** A matplotlib Axes: its curves, its title, whether it is visible ([axis("off")]).  The spines and ticks (plot.py:25-28) are
      not represented. *)
  Record axis : Type := Axis { ax_curves : list C; ax_title : string; ax_on : bool }.
  Definition blank : axis := Axis [] EmptyString true.
  (** What the argument [ax] is: one Axes, or an array of Axes, flattened ([ravel]).  Simplification: the axes of an array are
      different objects. *)
  Inductive axes : Type := Single (a : axis) | Array (l : list axis).

  (** matplotlib's [plt.subplots(rows, cols)] with its default [squeeze=True]. *)
  Definition subplots (rows cols : nat) : res axes :=
    if (rows =? 0) || (cols =? 0) then Raise ValueError
    else if (rows =? 1) && (cols =? 1) then Ok (Single blank)
    else Ok (Array (repeat blank (rows * cols))).

  (** A parameter of the context: its name, its prior, and its value, one row for each parameter particle. *)
  Record param : Type := Param { p_name : string; p_prior : dist; p_rows : list (list xf) }.

  (** prior.py:123-133 get_numel. *)
  Definition get_numel (d : dist) (constrained : bool) : nat := prod_list (if constrained then d_event d else d_uevent d).
  (** prior.py:64-84 get_unconstrained, one sample in each row. *)
  Definition get_unconstrained (d : dist) (rows : list (list xf)) : list (list xf) := map (d_inv d) rows.

  (** The argument [constrained], plot.py:40. *)
  Inductive choice : Type := All (b : bool) | Some_of (d : odict bool).
  (** plot.py:53-54. *)
  Definition as_dict (c : choice) (names : list string) : odict bool :=
    match c with All b => fold_left (fun d n => od_set n b d) names [] | Some_of d => d end.
  (** plot.py:56-58.  If the caller has passed a dictionary, it is that dictionary which is changed. *)
  Definition fill (names : list string) (d : odict bool) : odict bool :=
    fold_left (fun d n => if od_mem n d then d else od_set n true d) names d.
  Definition lookup (d : odict bool) (n : string) : res bool := match od_get n d with Some b => Ok b | None => Raise KeyError end.

  (** [sum(p.prior.get_numel(constrained[n]) for n, p in context.parameters.items())], plot.py:61. *)
  Fixpoint total_numel (d : odict bool) (ps : list param) : res nat :=
    match ps with
    | [] => Ok 0
    | p :: r => let! b := lookup d (p_name p) in let! n := total_numel d r in Ok (get_numel (p_prior p) b + n)
    end.
  (** [ceil(total / num_cols)], plot.py:61.  Exact, as the numbers are far below 2^53. *)
  Definition ceil_div (total cols : nat) : res nat := match cols with 0 => Raise ZeroDivisionError | _ => Ok ((total + cols - 1) / cols) end.
  (** plot.py:60-62. *)
  Definition make_axes (ax : option axes) (d : odict bool) (ps : list param) (num_cols : nat) : res axes :=
    match ax with
    | Some a => Ok a
    | None => let! total := total_numel d ps in let! num_rows := ceil_div total num_cols in subplots num_rows num_cols
    end.

  (** [parameter.view(-1, numel)], plot.py:76: all the numbers in order, cut into rows of [numel] (RuntimeError if this is not possible,
      or if there is no number, where -1 is ambiguous). *)
  Fixpoint cut (k n : nat) (l : list xf) : list (list xf) :=
    match k with 0 => [] | S k' => firstn n l :: cut k' n (skipn n l) end.
  Definition view_rows (numel : nat) (rows : list (list xf)) : res (list (list xf)) :=
    let flat := List.concat rows in
    if numel =? 0 then Raise RuntimeError
    else if List.length flat mod numel =? 0 then Ok (cut (List.length flat / numel) numel flat)
    else Raise RuntimeError.
  (** [flattened[..., i]], plot.py:81. *)
  Definition column (i : nat) (rows : list (list xf)) : list xf := map (fun r => nth i r NaN) rows.

  (** [f"{name}_{i:d}"], plot.py:80. *)
  Definition decimal (i : nat) : string := NilZero.string_of_uint (Nat.to_uint i).
  Definition title_of (name : string) (numel i : nat) : string :=
    if 1 <? numel then (name ++ "_" ++ decimal i)%string else name.

  (** plot.py:13-31 _do_plot.  statsmodels raises a ValueError if there are not as many weights as values. *)
  Definition do_plot (v w : list xf) (a : axis) (name : string) : res axis :=
    if List.length v =? List.length w then let! c := kde v w in Ok (Axis (ax_curves a ++ [c]) name (ax_on a)) else Raise ValueError.

  (** The state of the loops: the axes, [handled] (as indices), [fig_index]. *)
  Definition progress : Type := list axis * list nat * nat.
  (** plot.py:77-82, for the remaining indices [is]. *)
  Fixpoint plot_components (flattened : list (list xf)) (weights : list xf) (name : string) (numel : nat) (is : list nat) (st : progress) : progress * res unit :=
    match is with
    | [] => (st, Ok tt)
    | i :: r =>
        let '(l, handled, fig_index) := st in
        match nth_error l fig_index with
        | None => (st, Raise IndexError)
        | Some a =>
            match do_plot (column i flattened) weights a (title_of name numel i) with
            | Raise e => (st, Raise e)
            | Ok a' => plot_components flattened weights name numel r (replace_nth fig_index a' l, handled ++ [fig_index], S fig_index)
            end
        end
    end.
  (** plot.py:70-82. *)
  Fixpoint plot_parameters (d : odict bool) (weights : list xf) (ps : list param) (st : progress) : progress * res unit :=
    match ps with
    | [] => (st, Ok tt)
    | p :: r =>
        match lookup d (p_name p) with
        | Raise e => (st, Raise e)
        | Ok b =>
            let numel := get_numel (p_prior p) b in
            let rows := if b then p_rows p else get_unconstrained (p_prior p) (p_rows p) in
            match view_rows numel rows with
            | Raise e => (st, Raise e)
            | Ok flattened =>
                let (st', x) := plot_components flattened weights (p_name p) numel (seq 0 numel) st in
                match x with Raise e => (st', Raise e) | Ok _ => plot_parameters d weights r st' end
            end
        end
    end.
  (** plot.py:84-85. *)
  Definition switch_off (handled : list nat) (l : list axis) : list axis :=
    map (fun p => if existsb (Nat.eqb (fst p)) handled then snd p else Axis (ax_curves (snd p)) (ax_title (snd p)) false) (combine (seq 0 (List.length l)) l).

  (** What a call leaves behind: the dictionary of the caller (if one was passed), the log weights of the state, and the axes or the
      exception. *)
  Record outcome : Type := Outcome { o_dict : option (odict bool); o_weights : list xf; o_axes : res axes }.
  (** plot.py:35-87 mimic_arviz_posterior.  [w]: the log weights of the state. *)
  Definition mimic_arviz_posterior (ps : list param) (w : list xf) (num_cols : nat) (ax : option axes) (constrained : choice) : outcome :=
    let names := map p_name ps in
    let d := fill names (as_dict constrained names) in
    let theirs := match constrained with All _ => None | Some_of _ => Some d end in
    match make_axes ax d ps num_cols with
    | Raise e => Outcome theirs w (Raise e)
    | Ok (Single _) => Outcome theirs w (Raise AttributeError)
    | Ok (Array l) =>
        match normalize lowest w with
        | Raise e => Outcome theirs w (Raise e)
        | Ok (weights, w') =>
            let '(st, x) := plot_parameters d weights ps (l, [], 0) in
            Outcome theirs w' (match x with Raise e => Raise e | Ok _ => Ok (Array (switch_off (snd (fst st)) (fst (fst st)))) end)
        end
    end.
End Plot.
Arguments axis C : clear implicits.
Arguments axes C : clear implicits.
Arguments outcome C : clear implicits.
