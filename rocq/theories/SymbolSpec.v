(** What a user can observe of a function profile, independent of container
    order: presence and counts at an inline path, a location, a call target. *)
From Verif Require Import Base SymbolModel.

(** A chain of inlined calls, outermost first; [] is the function itself. *)
Definition path := list callsite.

Fixpoint node_at (s : symbol) (p : path) : option symbol :=
  match p with
  | [] => Some s
  | k :: p' => match aget callsite_eqb k (s_calls s) with
               | Some c => node_at c p'
               | None => None
               end
  end.

Definition has_node (s : symbol) (p : path) : bool :=
  match node_at s p with Some _ => true | None => false end.
Definition total_at (s : symbol) (p : path) : Z :=
  match node_at s p with Some n => s_total n | None => 0 end.
Definition head_at (s : symbol) (p : path) : Z :=
  match node_at s p with Some n => s_head n | None => 0 end.
Definition pos_at (s : symbol) (p : path) (l : Z) : option pinfo :=
  match node_at s p with Some n => aget Z.eqb l (s_pos n) | None => None end.
Definition has_pos (s : symbol) (p : path) (l : Z) : bool :=
  match pos_at s p l with Some _ => true | None => false end.
Definition count_at (s : symbol) (p : path) (l : Z) : Z :=
  match pos_at s p l with Some i => p_count i | None => 0 end.
Definition ninst_at (s : symbol) (p : path) (l : Z) : Z :=
  match pos_at s p l with Some i => p_ninst i | None => 0 end.
Definition has_target (s : symbol) (p : path) (l : Z) (t : name) : bool :=
  match pos_at s p l with
  | Some i => match aget name_eqb t (p_targets i) with Some _ => true | None => false end
  | None => false
  end.
Definition target_at (s : symbol) (p : path) (l : Z) (t : name) : Z :=
  match pos_at s p l with Some i => tget t (p_targets i) | None => 0 end.

(** Two profiles a user cannot tell apart. *)
Definition same_profile (a b : symbol) : Prop :=
  forall p l t,
    has_node a p = has_node b p /\ total_at a p = total_at b p /\ head_at a p = head_at b p /\
    has_pos a p l = has_pos b p l /\ count_at a p l = count_at b p l /\
    ninst_at a p l = ninst_at b p l /\
    has_target a p l t = has_target b p l t /\ target_at a p l t = target_at b p l t.

(** A value of type uint64_t. *)
Definition is_u64 (x : Z) : Prop := 0 <= x < 2 ^ 64.

(** A profile the C++ containers can hold: keys are unique, counts are 64-bit. *)
Definition targets_ok (m : list (name * Z)) : Prop :=
  NoDup (akeys m) /\ Forall (fun kv => is_u64 (snd kv)) m.
Definition pinfo_ok (i : pinfo) : Prop :=
  is_u64 (p_count i) /\ is_u64 (p_ninst i) /\ targets_ok (p_targets i).
Definition pos_ok (m : list (Z * pinfo)) : Prop :=
  NoDup (akeys m) /\ Forall (fun kv => pinfo_ok (snd kv)) m.
Inductive sym_ok : symbol -> Prop :=
| sym_ok_intro h t ts pos calls :
    is_u64 h -> is_u64 t -> pos_ok pos ->
    NoDup (akeys calls) -> (forall k c, In (k, c) calls -> sym_ok c) ->
    sym_ok (Sym h t ts pos calls).

(** The inline path a source stack selects (stack given outermost first):
    callsite after callsite, stopping at the first entry without valid line
    information when the profile is converted from raw samples. *)
Fixpoint stack_path (base : Z -> Z) (conv : bool) (outer : list sinfo) : path :=
  match outer with
  | i :: (j :: _) as rest =>
      if conv && si_invalid i then []
      else (si_offset base i, si_func j) :: stack_path base conv rest
  | _ => []
  end.

Fixpoint is_prefix (q p : path) : bool :=
  match q, p with
  | [], _ => true
  | k :: q', k' :: p' => callsite_eqb k k' && is_prefix q' p'
  | _ :: _, [] => false
  end.
Fixpoint path_eqb (q p : path) : bool :=
  match q, p with
  | [], [] => true
  | k :: q', k' :: p' => callsite_eqb k k' && path_eqb q' p'
  | _, _ => false
  end.

(** Two names denote the same function object. *)
Definition same_object (m : smap) (a b : name) : bool :=
  match aget name_eqb a (sm_names m), aget name_eqb b (sm_names m) with
  | Some i, Some j => Nat.eqb i j
  | _, _ => false
  end.

(** The numeric observations of a function profile. *)
Inductive observer :=
| OTotal (p : path) | OHead (p : path) | OCount (p : path) (l : Z) | ONinst (p : path) (l : Z)
| OTarget (p : path) (l : Z) (t : name).
Definition observe (o : observer) (s : symbol) : Z :=
  match o with
  | OTotal p => total_at s p
  | OHead p => head_at s p
  | OCount p l => count_at s p l
  | ONinst p l => ninst_at s p l
  | OTarget p l t => target_at s p l t
  end.
