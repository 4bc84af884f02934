(** Specification vocabulary for C20: which entries of a branch stack count. *)
From Verif Require Import Base SampleModel LbrModel.

Section S.
  Variable matches : Z -> bool.
  Variable limit : Z.

  (** entry [i] of the stack is the most recent one that was really executed *)
  Definition newest_valid (st : list branch_entry) (i : nat) : bool :=
    forallb b_wrong (firstn i st) &&
    match nth_error st i with Some e => negb (b_wrong e) | None => false end.

  (** entry [i] is an older, really executed entry of the binary with a sane
      straight-line run from its target up to the source of the entry recorded
      before it in the stack *)
  Definition range_entry (st : list branch_entry) (i : nat) : option (Z * Z) :=
    match i with
    | O => None
    | S j =>
        match nth_error st j, nth_error st i with
        | Some newer, Some older =>
            if negb (forallb b_wrong (firstn i st)) && negb (b_wrong older)
               && matches (b_to_dso older)
               && (b_to older <=? b_from newer) && (b_from newer - b_to older <=? 1048576)
               && negb ((i =? 1)%nat && (b_from newer =? b_from older) && (b_to newer =? b_to older)
                        && (limit <? (b_from newer - b_to newer) mod 2 ^ 64))
            then Some (b_to older, b_from newer) else None
        | _, _ => None
        end
    end.

  (** the branch that entry [i] contributes *)
  Definition branch_of (st : list branch_entry) (i : nat) : option (Z * Z) :=
    match nth_error st i with
    | Some e =>
        if matches (b_from_dso e) && matches (b_to_dso e)
           && (newest_valid st i || match range_entry st i with Some _ => true | None => false end)
        then Some (b_from e, b_to e) else None
    | None => None
    end.

  Definition opt_is (o : option (Z * Z)) (k : Z * Z) : bool :=
    match o with Some k' => pair_eqb k k' | None => false end.

  (** number of entries of a stack that contribute [k] *)
  Definition occurrences (f : list branch_entry -> nat -> option (Z * Z)) (k : Z * Z)
    (st : list branch_entry) : Z :=
    zlen (filter (fun i => opt_is (f st i) k) (seq 0 (length st))).

  Definition total_occurrences f k (evs : list sample_event) : Z :=
    fold_right (fun ev a => occurrences f k (ev_stack ev) + a) 0 evs.
End S.

Definition count_of (m : list ((Z * Z) * Z)) (k : Z * Z) : Z :=
  match aget pair_eqb k m with Some c => c | None => 0 end.
