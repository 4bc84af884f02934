(** The names and the section a function of the address map should get. *)
From Verif Require Import Base SymbolModel SymInfoModel.

(** A symbol that names the function at [a]: a function symbol with a name and
    a size; there is no function at address 0. *)
Definition names_function (a : Z) (s : esym) : bool :=
  (e_type s =? 2) && negb (e_size s =? 0) && negb (a =? 0) &&
  match e_addr s with Some x => x =? a | None => false end &&
  match e_name s with Some _ => true | None => false end.
(** The symbols of the function at [a], in the order of the symbol table; those
    whose size differs from the first one's do not count. *)
Definition symbols_at (l : list esym) (a : Z) : list esym :=
  match filter (names_function a) l with
  | [] => []
  | (s :: _) as c => filter (fun t => e_size t =? e_size s) c
  end.
(** ".text.hot" and the like are reported as ".text". *)
Definition section_group (sn g : name) : Prop :=
  let t := [46; 116; 101; 120; 116] in
  ((sn = t \/ exists r, sn = t ++ [46] ++ r) /\ g = t) \/
  (sn <> t /\ (forall r, sn <> t ++ [46] ++ r) /\ g = sn).
