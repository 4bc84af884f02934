(** What the profile symbol list promises. *)
From Verif Require Import Base SymbolModel SymbolSpec.

(** The profile mentions the name: as a function with samples, or, inside one, as
    a call target or as an inlined function. *)
Definition mentioned (m : smap) (n : name) : Prop :=
  exists x s, sm_find m x = Some s /\ 0 < total_at s [] /\
    (n = x \/ exists q l, has_target s q l n = true \/ has_node s (q ++ [(l, n)]) = true).
(** The binary has a function symbol of this name and size. *)
Definition in_binary (symtab : list (Z * (name * Z))) (x : name) (size : Z) : Prop :=
  exists a, In (a, (x, size)) symtab.
