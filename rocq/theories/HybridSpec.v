(** What copying a profile with calls instead of (some) inlined callees means. *)
From Verif Require Import Base SymbolModel SymbolSpec.

Fixpoint sumz {A} (f : A -> Z) (l : list A) : Z := match l with [] => 0 | x :: l' => f x + sumz f l' end.

(** The functions of a profile. *)
Definition functions (m : smap) : list (name * symbol) :=
  flat_map (fun e => match nth_error (sm_heap m) (snd e) with Some s => [(fst e, s)] | None => [] end) (sm_names m).

(** *** Where a copy belongs *)

(** Flat profiles: every copy of a function, outlined (true) or inlined (false). *)
Fixpoint copies (n : name) (outlined : bool) (s : symbol) : list (name * bool * symbol) :=
  match s with
  | Sym _ _ _ _ cs => (n, outlined, s) :: flat_map (fun kc => copies (snd (fst kc)) false (snd kc)) cs
  end.
Definition copies_of (F : name) (m : smap) : list (bool * symbol) :=
  map (fun e => (snd (fst e), snd e))
    (filter (fun e => name_eqb (fst (fst e)) F) (flat_map (fun ns => copies (fst ns) true (snd ns)) (functions m))).

(** Hybrid profiles: an inlined callee that is not hotter than the threshold
    becomes a function of its own, another one stays where it was inlined. *)
Fixpoint placed (thr : Z) (n : name) (p : path) (s : symbol) : list (name * path * symbol) :=
  match s with
  | Sym _ _ _ _ cs =>
      (n, p, s) :: flat_map (fun kc => if s_total (snd kc) <=? thr then placed thr (snd (fst kc)) [] (snd kc)
                                       else placed thr n (p ++ [fst kc]) (snd kc)) cs
  end.
Definition placed_at (thr : Z) (F : name) (p : path) (m : smap) : list symbol :=
  map snd (filter (fun e => name_eqb (fst (fst e)) F && path_eqb (snd (fst e)) p)
                  (flat_map (fun ns => placed thr (fst ns) [] (snd ns)) (functions m))).

(** *** What a copy contributes once the inlined callees satisfying [out] are
    calls, a callee [c] being called [hd c] times. *)
Section Lines.
  Context (out : symbol -> bool) (hd : symbol -> Z).
  (** the callees of [s] inlined at [l] that become calls *)
  Definition outs_at (l : Z) (s : symbol) : list (callsite * symbol) :=
    filter (fun kc => (fst (fst kc) =? l) && out (snd kc)) (s_calls s).
  Definition line_count (l : Z) (s : symbol) : Z :=
    fold_right Z.max (count_at s [] l) (map (fun kc => hd (snd kc)) (outs_at l s)).
  Definition line_target (l : Z) (t : name) (s : symbol) : Z :=
    target_at s [] l t + sumz (fun kc => if name_eqb (snd (fst kc)) t then hd (snd kc) else 0) (outs_at l s).
  Definition line_there (l : Z) (s : symbol) : Prop := has_pos s [] l = true \/ outs_at l s <> [].
  Definition target_there (l : Z) (t : name) (s : symbol) : Prop :=
    has_target s [] l t = true \/ exists kc, In kc (outs_at l s) /\ snd (fst kc) = t.
End Lines.

(** The node of a profile for a function and a chain of inlined calls. *)
Definition node_of (m : smap) (F : name) (p : path) : option symbol :=
  match sm_find m F with Some s => node_at s p | None => None end.
