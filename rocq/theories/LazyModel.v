(** Model of lazy_evaluator.h: a set of lazy evaluators used in any order. *)
From Verif Require Import Base.

Section Lazy.
  (** Input tuples, outputs, and the rest of the program's state (which an
      adapter may read and change). *)
  Context {In Out World : Type}.

  (** lazy_evaluator.h:44-49: the adapter, an arbitrary function that may
      have side effects. *)
  Definition adapter_t : Type := In -> World -> Out * World.

  (** lazy_evaluator.h:79-85: the variant inputs_or_output_.  [Moved] is the
      state of the first alternative after std::move (its AnyInvocable is
      empty, calling it is undefined behaviour). *)
  Inductive evaluator : Type :=
  | Pending (inputs : In) (adapter : adapter_t)
  | Moved
  | Ready (out : Out).

  (** A call of an adapter: which evaluator and with which inputs. *)
  Definition call : Type := (nat * In)%type.
  Record state := State { st_evs : list evaluator; st_world : World; st_calls : list call }.

  Fixpoint set_nth {A} (n : nat) (x : A) (l : list A) : list A :=
    match l, n with
    | [], _ => []
    | _ :: l', O => x :: l'
    | y :: l', S n' => y :: set_nth n' x l'
    end.

  (** lazy_evaluator.h:55-76 Evaluate of evaluator number i.  The adapter is
      assumed not to re-enter the same evaluator (fuel 2 covers the recursive
      call in line 73). *)
  Fixpoint evaluate (fuel : nat) (i : nat) (s : state) : outcome (Out * state) :=
    match fuel with
    | O => UB
    | S fuel' =>
        match nth_error (st_evs s) i with
        | None => UB
        | Some (Ready o) => Ok (o, s)
        | Some Moved => UB
        | Some (Pending x f) =>
            let '(o, w) := f x (st_world s) in
            evaluate fuel'
              i (State (set_nth i (Ready o) (set_nth i Moved (st_evs s))) w (st_calls s ++ [(i, x)]))
        end
    end.
  Definition Evaluate := evaluate 2.

  (** lazy_evaluator.h:44-52: the two constructors. *)
  Definition make (f : adapter_t) (x : In) : evaluator := Pending x f.
  Definition make_ready (o : Out) : evaluator := Ready o.

  (** A history: evaluate some evaluator, or the rest of the program changes
      its state. *)
  Inductive op := Eval (i : nat) | Other (f : World -> World).
  Fixpoint run (ops : list op) (s : state) : outcome (list (nat * Out) * state) :=
    match ops with
    | [] => Ok ([], s)
    | Eval i :: ops' =>
        let! '(o, s1) := Evaluate i s in
        let! '(os, s2) := run ops' s1 in Ok ((i, o) :: os, s2)
    | Other f :: ops' => run ops' (State (st_evs s) (f (st_world s)) (st_calls s))
    end.
End Lazy.
