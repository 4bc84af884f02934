(** How similar two profiles are, and which functions profile_diff lists. *)
From Verif Require Import Base SymbolModel AfdoModel.
From Coq Require Import Reals Sorted.
Open Scope Z_scope.

(** A profile: names in increasing order (so, once each), with 64-bit counts. *)
Definition profile_ok (l : list (name * Z)) : Prop :=
  StronglySorted (fun a b => name_ltb (fst a) (fst b) = true) l /\ forall e, In e l -> 0 <= snd e < 2 ^ 64.
Fixpoint total (l : list (name * Z)) : Z := match l with [] => 0 | (_, c) :: l' => c + total l' end.
(** Its counts do not add up to more than 64 bits. *)
Definition fits (l : list (name * Z)) : Prop := total l < 2 ^ 64.
(** The count of a function; 0 if it is not in the profile. *)
Fixpoint count_of (n : name) (l : list (name * Z)) : Z :=
  match l with [] => 0 | (k, c) :: l' => if name_eqb k n then c else count_of n l' end.

Open Scope R_scope.
(** The part of a profile that is in a function. *)
Definition part (n : name) (l : list (name * Z)) : R := IZR (count_of n l) / IZR (total l).
(** The overlap: over the functions, the smaller of their parts of the two
    profiles.  (A function that is not in the first profile adds nothing.) *)
Fixpoint common (ns : list name) (l1 l2 : list (name * Z)) : R :=
  match ns with [] => 0 | n :: ns' => Rmin (part n l1) (part n l2) + common ns' l1 l2 end.
Definition overlap (l1 l2 : list (name * Z)) : R := common (map fst l1) l1 l2.
(** The number of functions in the two profiles. *)
Definition functions_in (l1 l2 : list (name * Z)) (ns : list name) : Prop :=
  NoDup ns /\ forall n, In n ns <-> In n (map fst l1) \/ In n (map fst l2).
Open Scope Z_scope.

(** Hot in a profile: at least [cutoff] percent of the largest count. *)
Definition largest (l : list (name * Z)) (m : Z) : Prop :=
  (forall e, In e l -> snd e <= m) /\ ((l = [] /\ m = 0) \/ exists n, In (n, m) l).
Definition hot (cutoff : Z) (l : list (name * Z)) (n : name) : Prop :=
  forall m, largest l m -> m * cutoff <= count_of n l * 100.
