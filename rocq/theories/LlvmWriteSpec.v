(** What the LLVM profile must say about a symbol map. *)
From Verif Require Import Base SymbolModel SymbolSpec HybridSpec LlvmWriteModel.

(** The LLVM location of an offset: 16 bits of line, 32 bits of discriminator. *)
Definition llvm_loc (o : Z) : Z * Z := (o / 2 ^ 32 mod 2 ^ 16, o mod 2 ^ 32).
Definition llvm_key (k : callsite) : Z * Z * name := (llvm_loc (fst k), snd k).

(** The node of an LLVM profile for a function and a chain of inlined calls. *)
Fixpoint lnode (f : lfs) (q : list (Z * Z * name)) : option lfs :=
  match q with
  | [] => Some f
  | k :: q' => match find (fun kc => lkey_eqb (fst kc) k) (lf_calls f) with Some (_, c) => lnode c q' | None => None end
  end.
Definition lrecord (f : lfs) (l : Z * Z) : option (Z * list (name * Z)) :=
  match find (fun e => lloc_eqb (fst e) l) (lf_body f) with Some (_, r) => Some r | None => None end.
Definition ltarget (r : Z * list (name * Z)) (t : name) : option Z :=
  match find (fun e => name_eqb (fst e) t) (snd r) with Some (_, v) => Some v | None => None end.

(** The nodes of a function whose chain of inlined calls is [q] for LLVM. *)
Fixpoint nodes_at (q : list (Z * Z * name)) (s : symbol) : list symbol :=
  match q with
  | [] => [s]
  | k :: q' => flat_map (fun kc => if lkey_eqb (llvm_key (fst kc)) k then nodes_at q' (snd kc) else []) (s_calls s)
  end.
(** The line records of nodes at an LLVM location. *)
Definition lines_at (l : Z * Z) (ns : list symbol) : list pinfo :=
  flat_map (fun s => map snd (filter (fun e => lloc_eqb (llvm_loc (fst e)) l) (s_pos s))) ns.
Definition count_sum (is : list pinfo) : Z := sumz p_count is.
Definition targets_of (t : name) (is : list pinfo) : list Z :=
  flat_map (fun i => map snd (filter (fun e => name_eqb (fst e) t) (p_targets i))) is.
Definition target_sum (t : name) (is : list pinfo) : Z := sumz (fun x => x) (targets_of t is).

(** [f] is the LLVM profile of the function [s] called [g]. *)
Definition llvm_of (g : name) (s : symbol) (f : lfs) : Prop :=
  lf_name f = g /\ lf_head f = s_head s /\
  forall q, let ns := nodes_at q s in
    match lnode f q with
    | None => ns = []
    | Some x =>
        ns <> [] /\ lf_total x = sumz s_total ns /\
        (forall q0 k, q = q0 ++ [k] -> lf_name x = snd k /\ lf_head x = 0) /\
        forall l, match lrecord x l with
                  | None => lines_at l ns = []
                  | Some r => lines_at l ns <> [] /\ fst r = count_sum (lines_at l ns) /\
                      forall t, match ltarget r t with
                                | None => targets_of t (lines_at l ns) = []
                                | Some v => targets_of t (lines_at l ns) <> [] /\ v = target_sum t (lines_at l ns)
                                end
                  end
    end.
(** One of the sums does not fit into 64 bits. *)
Definition llvm_overflow (s : symbol) : Prop :=
  exists q, let ns := nodes_at q s in
    2 ^ 64 <= sumz s_total ns \/ exists l, 2 ^ 64 <= count_sum (lines_at l ns) \/ exists t, 2 ^ 64 <= target_sum t (lines_at l ns).
(** An inlined callee somewhere in [s] has no name. *)
Fixpoint nameless (s : symbol) : Prop :=
  match s with
  | Sym _ _ _ _ cs => fold_right (fun kc a => snd (fst kc) = [] \/ nameless (snd kc) \/ a) False cs
  end.
(** No line is above 65535: every location fits into 48 bits. *)
Fixpoint narrow (s : symbol) : Prop :=
  match s with
  | Sym _ _ _ pos cs =>
      Forall (fun e => 0 <= fst e < 2 ^ 48) pos /\
      fold_right (fun kc a => 0 <= fst (fst kc) < 2 ^ 48 /\ narrow (snd kc) /\ a) True cs
  end.
