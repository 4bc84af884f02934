(** Model of util/symbolize/nonoverlapping_range_map.h (NonOverlappingRangeMap).

    [RangeMap] is [std::map<Range, T, RangeStartLt>] (lines 32-37, 62): an
    ordered map keyed by the range, compared by its START only.  It is
    modelled by the list of its entries in iteration order.  An iterator
    into the map is modelled by the suffix of the list it points at (its
    position does not change when entries are inserted before it, as for
    std::map iterators). *)
From Coq Require Import ZArith List Lia Bool.
From Verif Require Import Base.
Import ListNotations.
Local Open Scope Z_scope.

(** One map entry: ((first, second), value). *)
Definition rentry (T : Type) : Type := ((Z * Z) * T)%type.
Definition rlo {T} (e : rentry T) : Z := fst (fst e).
Definition rhi {T} (e : rentry T) : Z := snd (fst e).
Definition rval {T} (e : rentry T) : T := snd e.

(** std::map::lower_bound with RangeStartLt (lines 32-37): splits the map
    in the entries before the returned iterator and the ones from it on. *)
Fixpoint lower_bound {T} (m : list (rentry T)) (low : Z)
  : list (rentry T) * list (rentry T) :=
  match m with
  | [] => ([], [])
  | e :: m' =>
      if rlo e <? low
      then let (p, s) := lower_bound m' low in (e :: p, s)
      else ([], m)
  end.

(** std::map::insert: [None] when an entry with an equivalent key (same
    start) exists ([insert_status.second] is false), the new map otherwise. *)
Fixpoint map_insert {T} (m : list (rentry T)) (e : rentry T)
  : option (list (rentry T)) :=
  match m with
  | [] => Some [e]
  | x :: m' =>
      if rlo x <? rlo e
      then match map_insert m' e with
           | Some r => Some (x :: r)
           | None => None
           end
      else if rlo e <? rlo x then Some (e :: m)
      else None
  end.

(** nonoverlapping_range_map.h 213-220 RangeStrictlyContains *)
Definition strictly_contains (o i : Z * Z) : bool :=
  (fst o <=? fst i) && (snd i <=? snd o)
  && (negb (fst o =? fst i) || negb (snd o =? snd i)).

(** CHECK(insert_status.second) after an insert *)
Definition checked_insert {T} (m : list (rentry T)) (e : rentry T)
  : outcome (list (rentry T)) :=
  match map_insert m e with
  | Some m' => Ok m'
  | None => Abort
  end.

(** nonoverlapping_range_map.h 222-245 SplitRange; the map without the erased
    entry ([ranges_.erase(split)]) is [before ++ after]. *)
Definition SplitRange {T} (before : list (rentry T)) (split : rentry T)
  (after : list (rentry T)) (low high : Z) (value : T)
  : outcome (list (rentry T)) :=
  let m := before ++ after in
  let! m1 := (if low =? rlo split then Ok m
              else checked_insert m ((rlo split, low), rval split)) in
  let! m2 := checked_insert m1 ((low, high), value) in
  if high =? rhi split then Ok m2
  else checked_insert m2 ((high, rhi split), rval split).

(** nonoverlapping_range_map.h 129-151, the gap-filling loop of InsertRange;
    [ip] is the iterator insert_point (the suffix it points at), [m] the
    whole map. *)
Fixpoint fill_gaps {T} (m ip : list (rentry T)) (low high : Z) (value : T)
  : outcome (list (rentry T)) :=
  if low <? high then
    match ip with
    | [] =>
        (* line 131: the result of this insert is not checked *)
        match map_insert m ((low, high), value) with
        | Some m' => Ok m'
        | None => Ok m
        end
    | e :: ip' =>
        let! m' :=
          (if low =? rlo e then Ok m
           else
             let to := Z.min high (rlo e) in
             if (to =? high) || (rhi e <=? high) then
               if low <? to then checked_insert m ((low, to), value)
               else Abort
             else Abort) in
        fill_gaps m' ip' (Z.min high (rhi e)) high value
    end
  else Ok m.

(** nonoverlapping_range_map.h 102-152 InsertRange *)
Definition InsertRange {T} (m : list (rentry T)) (low high : Z) (value : T)
  : outcome (list (rentry T)) :=
  if low =? high then Ok m
  else
    let (pre, ip) := lower_bound m low in
    let at_ip :=
      match ip with
      | e :: ip' =>
          if strictly_contains (fst e) (low, high)
          then SplitRange pre e ip' low high value
          else fill_gaps m ip low high value
      | [] => fill_gaps m ip low high value
      end in
    match rev pre with
    | p :: rest =>
        if strictly_contains (fst p) (low, high)
        then SplitRange (rev rest) p ip low high value
        else if rhi p <=? low then at_ip
        else Abort
    | [] => at_ip
    end.

(** nonoverlapping_range_map.h 93-100 InsertRangeList *)
Fixpoint InsertRangeList {T} (m : list (rentry T)) (rs : list (Z * Z)) (value : T)
  : outcome (list (rentry T)) :=
  match rs with
  | [] => Ok m
  | (lo, hi) :: rs' =>
      let! m' := InsertRange m lo hi value in InsertRangeList m' rs' value
  end.

(** nonoverlapping_range_map.h 154-186 Find / FindHelper; the returned
    iterator is the entry, or [None] for end(). *)
Definition Find {T} (m : list (rentry T)) (address : Z) : option (rentry T) :=
  let (pre, ip) := lower_bound m address in
  let back :=
    match rev pre with
    | [] => None
    | p :: _ => if address <? rhi p then Some p else None
    end in
  match ip with
  | e :: _ =>
      if rlo e =? address
      then if address <? rhi e then Some e else None
      else back
  | [] => back
  end.
