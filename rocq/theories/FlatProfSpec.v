(** What a flat copy of a function must contain. *)
From Verif Require Import Base SymbolModel SymbolSpec HybridSpec.

(** [s] is the flat version of the copies [cs] of a function (true: an outlined
    copy, false: an inlined one), an inlined copy c being entered [hd c] times:
    it has no inlined callees; head counts, numbers of instructions, line counts
    and call targets are the sums over the copies, every callee inlined in a copy
    being a call; the total is the sum of the line counts. *)
Definition flat_copy (hd : symbol -> Z) (cs : list (bool * symbol)) (s : symbol) : Prop :=
  s_calls s = [] /\
  s_head s = sumz (fun c : bool * symbol => if fst c then s_head (snd c) else hd (snd c)) cs mod 2 ^ 64 /\
  s_total s = sumz (fun l => count_at s [] l) (map fst (s_pos s)) mod 2 ^ 64 /\
  forall l, let out := fun _ : symbol => true in
    ninst_at s [] l = sumz (fun c : bool * symbol => ninst_at (snd c) [] l) cs mod 2 ^ 64 /\
    count_at s [] l = sumz (fun c : bool * symbol => line_count out hd l (snd c)) cs mod 2 ^ 64 /\
    (has_pos s [] l = true <-> exists c, In c cs /\ line_there out l (snd c)) /\
    forall t, target_at s [] l t = sumz (fun c : bool * symbol => line_target out hd l t (snd c)) cs mod 2 ^ 64 /\
      (has_target s [] l t = true <-> exists c, In c cs /\ target_there out l t (snd c)).
