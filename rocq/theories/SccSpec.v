(** Call graphs, recursion, and orders of evaluation. *)
From Verif Require Import Base SccModel.
From Coq Require Import Relations.Relation_Operators.

(** A finite call graph. *)
Definition graph_ok (g : graph) : Prop :=
  NoDup (g_nodes g) /\ forall a b, In a (g_nodes g) -> In b (g_callees g a) -> In b (g_nodes g).
Definition calls (g : graph) (a b : nat) : Prop := In b (g_callees g a).
(** [a] can (transitively) call [b], or is [b]. *)
Definition reaches (g : graph) : nat -> nat -> Prop := clos_refl_trans nat (calls g).
Definition mutually_recursive (g : graph) (a b : nat) : Prop := reaches g a b /\ reaches g b a.

(** The grouping computed for a graph. *)
Definition same_group (m : list (nat * nat)) (a b : nat) : Prop := root m a = root m b.
(** [a] occurs before [b] in [l]. *)
Definition precedes (l : list nat) (a b : nat) : Prop :=
  exists l1 l2 l3, l = l1 ++ a :: l2 ++ b :: l3.
