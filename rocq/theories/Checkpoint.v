(** * The checkpointing of get_pred_log_prob (classification.py 707-738) and
    get_gauss_pred (regression.py 253-281).

    joblib.Memory (joblib 0.11) is a library; it is modelled by its contract:
    the result of a completed call is stored under the function's arguments
    (here: the state of the estimator object when the call is made, and the
    data); a call whose arguments have a stored result returns it without
    running the function; a result file that was only partly written cannot be
    loaded, and the call is made again.  Hash collisions and edits of the
    function's code are not modelled, nor two methods that share one mutable
    estimator object. *)
From Verif Require Import PyBase.
Open Scope list_scope.

Inductive entry (V : Type) := Torn | Stored (v : V).
Arguments Torn {V}.
Arguments Stored {V} v.

Section Memory.
  (** estimator states, data sets, results of a train/predict, rows reported *)
  Context {S D V W : Type}.
  Context (key_eqb : S * D -> S * D -> bool).
  Context (train_predict : S -> D -> res V).
  (** what the loop does with a result: check its shape, floor it, ... *)
  Context (finish : V -> res W).

  (** The checkpoint directory, newest entry first. *)
  Definition store := list ((S * D) * entry V).
  Definition lookup (st : store) (k : S * D) : option V :=
    match find (fun e => key_eqb k (fst e)) st with
    | Some (_, Stored v) => Some v
    | _ => None
    end.

  (** Where a run is interrupted: while a method is fitted, or while its result
      is written. *)
  Inductive crash_kind := InFit | InWrite.
  Inductive outcome := Crashed | Raised (e : exn) | Done (tbl : list (pystr * W)).

  (** One run.  [crash] gives the number of methods handled before the crash.
      Returns the directory, the methods fitted and the outcome.  [memory]
      tells whether a checkpoint directory was given. *)
  Fixpoint run (memory : bool) (st : store) (data : D) (methods : list (pystr * S)) (crash : option (nat * crash_kind))
    : store * list pystr * outcome :=
    match methods with
    | [] => (st, [], Done [])
    | (name, s) :: rest =>
        let continue st v fitted :=
          match finish v with
          | Err e => (st, fitted, Raised e)
          | Ok w =>
              let crash' := match crash with Some (Datatypes.S n, k) => Some (n, k) | _ => None end in
              let '(st', f, out) := run memory st data rest crash' in
              (st', fitted ++ f, match out with Done t => Done ((name, w) :: t) | _ => out end)
          end in
        match (if memory then lookup st (s, data) else None) with
        | Some v =>
            match crash with
            | Some (O, _) => (st, [], Crashed)
            | _ => continue st v []
            end
        | None =>
            match crash with
            | Some (O, InFit) => (st, [name], Crashed)
            | Some (O, InWrite) =>
                match train_predict s data with
                | Err e => (st, [name], Raised e)
                | Ok _ => (if memory then ((s, data), Torn) :: st else st, [name], Crashed)
                end
            | _ =>
                match train_predict s data with
                | Err e => (st, [name], Raised e)
                | Ok v => continue (if memory then ((s, data), Stored v) :: st else st) v [name]
                end
            end
        end
    end.
End Memory.
