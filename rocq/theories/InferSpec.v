(** The flow equations behind the inferred fall-through counts. *)
From Verif Require Import Base CfgFreqModel SymbolModel MapperModel MapperSpec CfgBuildModel CfgBuildSpec InferModel.
From Coq Require Import Sorting.Sorted.

(** Sampled weight of the branches into and out of block [k]. *)
Definition taken_in (mp : mapper) (taken : list counter) (k : nat) : Z :=
  sum_if (fun c => match block_of mp (snd (fst c)) DTo with Some j => (j =? k)%nat | None => false end) taken.
Definition taken_out (mp : mapper) (taken : list counter) (k : nat) : Z :=
  sum_if (fun c => match block_of mp (fst (fst c)) DFrom with Some j => (j =? k)%nat | None => false end) taken.

(** Address [a] is the last instruction of block [k] (instructions of size
    [isz]). *)
Definition ends_block (mp : mapper) (isz a : Z) (k : nat) : bool :=
  match block_of mp a DFrom with Some j => (j =? k)%nat && (a =? blk_end mp j - isz) | None => false end.
(** How often control is known to have passed the end of block [k]: the count
    of the not-taken branch there, 0 if only a taken branch was seen there. *)
Definition measured (mp : mapper) (isz : option Z) (taken : list counter) (not_taken : list (Z * Z)) (k : nat) : option Z :=
  match isz with
  | None => None
  | Some n =>
      match find (fun c => ends_block mp n (fst c) k) not_taken with
      | Some c => Some (snd c)
      | None => if existsb (fun c => ends_block mp n (fst (fst c)) k) taken then Some 0 else None
      end
  end.
(** The blocks about which something was sampled. *)
Definition sampled (mp : mapper) (isz : option Z) (taken : list counter) (not_taken : list (Z * Z)) (k : nat) : Prop :=
  (exists c, In c taken /\ (block_of mp (fst (fst c)) DFrom = Some k \/ block_of mp (snd (fst c)) DTo = Some k)) \/
  measured mp isz taken not_taken k <> None.

(** The range recorded for a fall-through out of block [k] when the next
    sampled block is [next]. *)
Definition range_end (mp : mapper) (k : nat) (next : option nat) : option nat :=
  let direct := match next with Some n => if CanFallThrough mp k n then Some n else None | None => None end in
  match direct with
  | Some n => Some n
  | None => if (S k <? blk_count mp)%nat && CanFallThrough mp k (S k) then Some (S k) else None
  end.

(** [ks] lists the sampled blocks in ascending order and [ft] the fall-through
    weight out of each; [prev] of the first is absent. *)
Definition flow_equations (mp : mapper) (isz : option Z) (taken : list counter) (not_taken : list (Z * Z))
    (ks : list nat) (ft : nat -> Z) : Prop :=
  StronglySorted lt ks /\
  (forall k, In k ks <-> sampled mp isz taken not_taken k) /\
  forall i k, nth_error ks i = Some k ->
    let carried :=
      match i with
      | O => 0
      | S i' => let p := nth i' ks 0%nat in
                if (0 <? ft p) && CanFallThrough mp p k then ft p else 0
      end in
    ft k = match measured mp isz taken not_taken k with
           | Some w => w
           | None => taken_in mp taken k + carried - taken_out mp taken k
           end.

(** What [flow_equations] implies for the count of the range [A, B]. *)
Fixpoint range_sum (mp : mapper) (ft : nat -> Z) (A B : Z) (ks : list nat) : Z :=
  match ks with
  | [] => 0
  | k :: ks' =>
      (match range_end mp k (match ks' with [] => None | n :: _ => Some n end) with
       | Some e => if (0 <? ft k) && (blk_start mp k =? A) && (blk_start mp e =? B) then ft k else 0
       | None => 0
       end) + range_sum mp ft A B ks'
  end.
Definition count_of (m : list counter) (A B : Z) : Z :=
  match aget zpair_eqb (A, B) m with Some v => v | None => 0 end.
