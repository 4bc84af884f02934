(** Lemmas about the AutoFDO reader: (A) reading what the writer wrote performs
    [eff_sym]; (B) what [eff_sym] does to the observations of a profile. *)
From Verif Require Import Base GcovModel GcovSpec GcovProofs SrcOffsetModel SymbolModel SymbolSpec
  SymbolProofs AttribProofs AfdoModel AfdoProofs.

(** ** Reading values one by one *)
Section Values.
  Variable v : Z.
  Definition ready (st : rstate) (vs : list gval) (rest : list byte) : Prop :=
    rwf st /\ pending st = write_vals v vs ++ rest.

  Lemma rd_word st x vs rest : ready st (VWord x :: vs) rest -> 0 <= x < 2 ^ 32 ->
    exists st', gcov_read_unsigned st = Ok (x, st') /\ ready st' vs rest.
  Proof.
    intros [W P] X. rewrite write_vals_cons, <- app_assoc in P.
    cbn [write_val] in P. unfold gcov_write_unsigned in P. cbn [app] in P.
    assert (u32 x = x) as E by (unfold u32, w32; apply Z.mod_small; exact X). rewrite E in P.
    destruct (read_unsigned_spec x st (write_vals v vs ++ rest)) as (st' & A & B & C); auto.
    exists st'. split; [exact A|]. split; assumption.
  Qed.
  Lemma rd_counter st x vs rest : ready st (VCounter x :: vs) rest -> 0 <= x < 2 ^ 64 ->
    exists st', gcov_read_counter st = Ok (x, st') /\ ready st' vs rest.
  Proof.
    intros [W P] X. rewrite write_vals_cons, <- app_assoc in P.
    cbn [write_val] in P. unfold gcov_write_counter in P. cbn [app] in P.
    destruct (read_counter_spec x st (write_vals v vs ++ rest)) as (st' & A & B & C); auto.
    exists st'. split; [exact A|]. split; assumption.
  Qed.
  Lemma rd_string st s vs rest : ready st (VString s :: vs) rest -> gval_ok v (VString s) ->
    exists st', gcov_read_string v st = Ok (Some s, st') /\ ready st' vs rest.
  Proof.
    intros [W P] X. rewrite write_vals_cons, <- app_assoc in P. cbn [write_val] in P.
    destruct (read_string_spec v s st (write_vals v vs ++ rest)) as (st' & A & B & C); auto.
    exists st'. split; [exact A|]. split; assumption.
  Qed.
End Values.

(** ** Updating one function of the map *)
Definition holds (m0 : smap) (top : name) (cur : symbol) (m : smap) : Prop :=
  sm_update top (fun _ => cur) m0 = Ok m.

Lemma set_nth_twice {A} i (x y : A) l : set_nth i y (set_nth i x l) = set_nth i y l.
Proof. revert i; induction l; intros [|i]; cbn [set_nth]; auto. rewrite IHl. reflexivity. Qed.
Lemma set_nth_same {A} i (x : A) l : nth_error l i = Some x -> set_nth i x l = l.
Proof.
  revert i; induction l; intros [|i]; cbn [set_nth nth_error]; try discriminate; auto.
  - congruence.
  - intros H. rewrite IHl; auto.
Qed.
Lemma length_set_nth {A} i (x : A) l : length (set_nth i x l) = length l.
Proof. revert i; induction l; intros [|i]; cbn [set_nth length]; auto. Qed.

Lemma holds_step m0 top cur m f : holds m0 top cur m ->
  exists m', sm_update top f m = Ok m' /\ holds m0 top (f cur) m'.
Proof.
  unfold holds, sm_update. destruct (aget name_eqb top (sm_names m0)) as [i|] eqn:E; [|discriminate].
  destruct (nth_error (sm_heap m0) i) as [s|] eqn:N; [|discriminate].
  intros H. inversion H; subst. cbn [sm_names sm_heap]. rewrite E.
  assert (L : (i < length (sm_heap m0))%nat) by (apply nth_error_Some; congruence).
  rewrite nth_set_nth by auto. rewrite Nat.eqb_refl. eexists; split; [reflexivity|].
  rewrite set_nth_twice. reflexivity.
Qed.
Lemma holds_start m top s : sm_find m top = Some s -> holds m top s m.
Proof.
  unfold holds, sm_update, sm_find. destruct (aget name_eqb top (sm_names m)) as [i|]; [|discriminate].
  intros H. rewrite H. rewrite set_nth_same by auto. destruct m; reflexivity.
Qed.
Lemma holds_find m0 top cur m : holds m0 top cur m ->
  (forall a b, same_object m a b = same_object m0 a b) /\
  (forall n, sm_find m n = if same_object m0 n top then Some cur else sm_find m0 n) /\
  sm_names m = sm_names m0.
Proof.
  intros H. unfold holds in H.
  assert (exists s, sm_find m0 top = Some s) as [s F].
  { unfold sm_update, sm_find in *. destruct (aget name_eqb top (sm_names m0)); [|discriminate].
    destruct (nth_error (sm_heap m0) n); [eauto|discriminate]. }
  destruct (sm_update_spec top (fun _ => cur) m0 s F) as (m' & A & B & C).
  rewrite H in A. inversion A; subst. repeat split; auto.
  unfold sm_update in H. destruct (aget name_eqb top (sm_names m0)); [|discriminate].
  destruct (nth_error (sm_heap m0) n); [|discriminate]. inversion H; reflexivity.
Qed.

(** ** (A) *)
Section Read.
  Variables (base : Z -> Z) (orig : name -> name) (version : Z) (force : bool).

  Definition act_count (stack : list sinfo) (leaf : sinfo) (c : Z) (cur : symbol) : symbol :=
    on_stack_node base false c
      (set_pos (si_offset base leaf)
         (fun p => PInfo (add64 (p_count p) c) (add64 (p_ninst p) 1) (p_targets p)))
      (rev (leaf :: stack)) cur.
  Definition act_target (stack : list sinfo) (leaf : sinfo) (t : name) (c : Z) (cur : symbol) : symbol :=
    on_stack_node base false 0
      (set_pos (si_offset base leaf)
         (fun p => PInfo (p_count p) (p_ninst p) (aset name_eqb (orig t) c (p_targets p))))
      (rev (leaf :: stack)) cur.
  Definition eff_targets stack leaf (ts : list (name * Z)) (cur : symbol) : symbol :=
    fold_left (fun cur '(t, c) => act_target stack leaf t c cur) ts cur.
  Definition entry (n : name) (l : Z) : sinfo := stack_entry n (GenerateCompressedOffset l).
  Definition eff_pos n stack (ps : list (Z * pinfo)) (cur : symbol) : symbol :=
    fold_left (fun cur '(l, i) => eff_targets stack (entry n l) (p_targets i)
                                    (act_count stack (entry n l) (p_count i) cur)) ps cur.
  Fixpoint eff_sym n stack (s : symbol) (cur : symbol) {struct s} : symbol :=
    match s with
    | Sym _ _ _ pos calls =>
        (fix go (l : list (callsite * symbol)) (cur : symbol) : symbol :=
           match l with
           | [] => cur
           | (k, c) :: l' => go l' (eff_sym (snd k) (entry n (fst k) :: stack) c cur)
           end) calls (eff_pos n stack pos cur)
    end.
  Definition eff_calls n stack (cs : list (callsite * symbol)) (cur : symbol) : symbol :=
    fold_left (fun cur '(k, c) => eff_sym (snd k) (entry n (fst k) :: stack) c cur) cs cur.
  Lemma eff_sym_eq n stack s cur :
    eff_sym n stack s cur = eff_calls n stack (s_calls s) (eff_pos n stack (s_pos s) cur).
  Proof.
    destruct s as [h t ts pos calls]. cbn [eff_sym s_calls s_pos].
    unfold eff_calls. generalize (eff_pos n stack pos cur). induction calls as [|[k c] l IH]; intros x; auto.
    cbn [fold_left]. apply IH.
  Qed.

  (** the table and its encodability *)
  Variable t : list name.
  Hypothesis t_small : zlen t < 2 ^ 32.

  Definition targets_enc (ts : list (name * Z)) : Prop :=
    zlen ts < 2 ^ 32 /\ Forall (fun tc => In (fst tc) t /\ is_u64 (snd tc)) ts.
  Definition pos_enc (ps : list (Z * pinfo)) : Prop :=
    zlen ps < 2 ^ 32 /\ Forall (fun li => is_u64 (p_count (snd li)) /\ targets_enc (p_targets (snd li))) ps.
  Inductive sym_enc : symbol -> Prop :=
  | sym_enc_intro h tot ts pos calls :
      is_u64 h -> is_u64 ts -> pos_enc pos -> zlen calls < 2 ^ 32 ->
      (forall k c, In (k, c) calls -> In (snd k) t /\ sym_enc c) ->
      sym_enc (Sym h tot ts pos calls).

  Lemma name_at_ix n : In n t -> name_at t (ix t n) = Ok n /\ 0 <= ix t n < 2 ^ 32.
  Proof.
    intros I. unfold name_at. unfold ix.
    pose proof (GetStringIndex_spec t n) as H. destruct (GetStringIndex t n) as [i|]; [|tauto].
    destruct H as [H1 H2]. rewrite H2. replace ((0 <=? i) && (i <? zlen t)) with true by lia.
    split; [reflexivity|lia].
  Qed.

  Definition top_of (n : name) (stack : list sinfo) : name :=
    match stack with [] => n | _ => top_func stack end.
  Lemma top_func_entry n l stack : top_func (entry n l :: stack) = top_of n stack.
  Proof. destruct stack; reflexivity. Qed.
  Lemma top_of_nested n l callee stack : top_of callee (entry n l :: stack) = top_of n stack.
  Proof. destruct stack; reflexivity. Qed.

  Lemma gco_range l : 0 <= GenerateCompressedOffset l < 2 ^ 32.
  Proof.
    unfold GenerateCompressedOffset, u32. change w32 with (2 ^ 32). apply Z.mod_pos_bound. lia.
  Qed.

  Lemma read_targets_spec m0 n stack l update ts : forall st m cur vs rest,
    Forall (fun tc => In (fst tc) t /\ is_u64 (snd tc)) ts ->
    ready version st (tvals t ts ++ vs) rest -> holds m0 (top_of n stack) cur m ->
    exists st' m',
      rep (length ts) (read_target base orig force t update (entry n l :: stack)) (st, m)
        = Ok (st', m') /\ ready version st' vs rest /\
      holds m0 (top_of n stack) (if force || update then eff_targets stack (entry n l) ts cur else cur) m'.
  Proof.
    induction ts as [|[x c] ts IH]; intros st m cur vs rest F R H.
    - exists st, m. cbn. split; [reflexivity|split; [exact R|]]. destruct (force || update); auto.
    - cbn [length rep]. inversion F as [|? ? [Ix Ic] F']; subst. cbn [fst snd] in *.
      cbn [tvals flat_map app] in R.
      destruct (rd_word _ _ _ _ _ R) as (st1 & E1 & R1); [unfold HIST_TYPE_INDIR_CALL_TOPN; lia|].
      destruct (name_at_ix x Ix) as [Nx Bx].
      destruct (rd_counter _ _ _ _ _ R1) as (st2 & E2 & R2); [lia|].
      destruct (rd_counter _ _ _ _ _ R2) as (st3 & E3 & R3); [exact Ic|].
      unfold read_target at 1. rewrite E1. cbn [obind].
      change (HIST_TYPE_INDIR_CALL_TOPN =? HIST_TYPE_INDIR_CALL_TOPN) with true. cbv iota.
      rewrite E2. cbn [obind]. rewrite Nx. cbn [obind]. rewrite E3. cbn [obind].
      destruct (force || update) eqn:U.
      + unfold AddIndirectCallTarget. rewrite top_func_entry.
        destruct (holds_step m0 (top_of n stack) cur m (act_target stack (entry n l) x c) H) as (m1 & U1 & H1).
        unfold act_target in U1. cbn [andb] in *. cbv beta in U1.
        change (sm_update (top_of n stack)
          (on_stack_node base false 0
            (fun s : symbol => set_pos (si_offset base (entry n l))
               (fun p : pinfo => PInfo (p_count p) (p_ninst p) (aset name_eqb (orig x) c (p_targets p))) s)
            (rev (entry n l :: stack))) m) with
          (sm_update (top_of n stack)
            (fun cur => on_stack_node base false 0
               (set_pos (si_offset base (entry n l))
               (fun p : pinfo => PInfo (p_count p) (p_ninst p) (aset name_eqb (orig x) c (p_targets p))))
            (rev (entry n l :: stack)) cur) m).
        rewrite U1. cbn [obind].
        destruct (IH st3 m1 _ vs rest F' R3 H1) as (st' & m' & A & B & C).
        exists st', m'. split; [exact A|split; [exact B|]]. exact C.
      + cbn [obind]. destruct (IH st3 m cur vs rest F' R3 H) as (st' & m' & A & B & C).
        exists st', m'. split; [exact A|split; [exact B|]]. exact C.
  Qed.

  Lemma zlen_to_nat {A} (l : list A) : Z.to_nat (zlen l) = length l.
  Proof. unfold zlen. apply Nat2Z.id. Qed.

  Lemma read_pos_spec m0 n stack update ps : forall st m cur vs rest,
    Forall (fun li => is_u64 (p_count (snd li)) /\ targets_enc (p_targets (snd li))) ps ->
    ready version st (pvals t ps ++ vs) rest -> holds m0 (top_of n stack) cur m ->
    exists st' m',
      rep (length ps) (read_pos base orig force t update n stack) (st, m) = Ok (st', m') /\
      ready version st' vs rest /\
      holds m0 (top_of n stack) (if force || update then eff_pos n stack ps cur else cur) m'.
  Proof.
    induction ps as [|[l i] ps IH]; intros st m cur vs rest F R H.
    - exists st, m. cbn. split; [reflexivity|split; [exact R|]]. destruct (force || update); auto.
    - cbn [length rep]. inversion F as [|? ? [Ic [It Ft]] F']; subst. cbn [fst snd] in *.
      cbn [pvals flat_map] in R. rewrite <- app_assoc in R. cbn [app] in R.
      destruct (rd_word _ _ _ _ _ R) as (st1 & E1 & R1); [apply gco_range|].
      destruct (rd_word _ _ _ _ _ R1) as (st2 & E2 & R2); [pose proof (zlen_nonneg (p_targets i)); lia|].
      destruct (rd_counter _ _ _ _ _ R2) as (st3 & E3 & R3); [exact Ic|].
      fold (pvals t ps) in R3.
      unfold read_pos at 1. rewrite E1. cbn [obind]. rewrite E2. cbn [obind]. rewrite E3. cbn [obind].
      fold (entry n l). rewrite zlen_to_nat.
      assert (S1 : exists m1, (if force || update
         then AddSourceCount base false (top_func (entry n l :: stack)) (entry n l :: stack) (p_count i) 1 m
         else Ok m) = Ok m1 /\
         holds m0 (top_of n stack) (if force || update then act_count stack (entry n l) (p_count i) cur else cur) m1).
      { destruct (force || update); [|exists m; auto].
        unfold AddSourceCount. rewrite top_func_entry.
        destruct (holds_step m0 (top_of n stack) cur m (act_count stack (entry n l) (p_count i)) H) as (m1 & U1 & H1).
        exists m1. split; auto. }
      destruct S1 as (m1 & -> & H1). cbn [obind].
      destruct (read_targets_spec m0 n stack l update (p_targets i) st3 m1 _ (pvals t ps ++ vs) rest Ft R3 H1)
        as (st4 & m2 & A & B & C).
      rewrite A. cbn [obind].
      destruct (IH st4 m2 _ vs rest F' B C) as (st' & m' & A' & B' & C').
      exists st', m'. split; [exact A'|]. split; [exact B'|].
      destruct (force || update); exact C'.
  Qed.

  Fixpoint depth (s : symbol) : nat :=
    match s with
    | Sym _ _ _ _ cs => S (fold_right (fun kc a => Nat.max (depth (snd kc)) a) O cs)
    end.
  Lemma depth_child k c h tot ts pos cs : In (k, c) cs -> (depth c < depth (Sym h tot ts pos cs))%nat.
  Proof.
    intros I. cbn [depth]. apply Nat.lt_succ_r.
    induction cs as [|[k' c'] cs IH]; [destruct I|]. cbn [fold_right snd].
    destruct I as [E|I]; [inversion E; subst; lia|]. specialize (IH I). lia.
  Qed.

  (** the loops of ReadSymbolProfile after the header words *)
  Lemma read_body m0 update : forall fuel s n stack st m cur vs rest,
    (depth s <= fuel)%nat -> sym_enc s ->
    ready version st (flat_map (evals version t) (traverse s) ++ vs) rest ->
    holds m0 (top_of n stack) cur m ->
    exists st0 st' m',
      gcov_read_unsigned st = Ok (zlen (s_pos s), st0) /\
      exists st1, gcov_read_unsigned st0 = Ok (zlen (s_calls s), st1) /\
      (let! x := rep (length (s_pos s)) (read_pos base orig force t update n stack) (st1, m) in
       rep (length (s_calls s))
          (fun x : rm =>
             let '(st, m) := x in
             let! '(offset, st) := gcov_read_unsigned st in
             read_symbol base orig version force t (Nat.pred fuel) (stack_entry n offset :: stack) update (st, m)) x)
      = Ok (st', m') /\
      ready version st' vs rest /\
      holds m0 (top_of n stack) (if force || update then eff_sym n stack s cur else cur) m'.
  Proof.
    induction fuel as [|fuel IH]; intros s n stack st m cur vs rest D En R H.
    { destruct s; cbn in D; lia. }
    destruct En as [h tot ts pos calls Hh Hts [Lp Fp] Lc Hc]. cbn [s_pos s_calls Nat.pred].
    cbn [traverse flat_map evals s_pos s_calls] in R. rewrite <- app_assoc in R. cbn [app] in R.
    destruct (rd_word _ _ _ _ _ R) as (st0 & E0 & R0); [pose proof (zlen_nonneg pos); lia|].
    destruct (rd_word _ _ _ _ _ R0) as (st1 & E1 & R1); [split; [apply zlen_nonneg|exact Lc]|].
    destruct (read_pos_spec m0 n stack update pos st1 m cur _ rest Fp R1 H) as (st2 & m2 & A & B & C).
    exists st0. 
    assert (G : forall cs st m cur, (forall k c, In (k, c) cs -> In (k, c) calls) ->
      ready version st (flat_map (evals version t) (flat_map (fun '(k, c) => ECall k :: traverse c) cs) ++ vs) rest ->
      holds m0 (top_of n stack) cur m ->
      exists st' m',
       rep (length cs)
          (fun x : rm =>
             let '(st, m) := x in
             let! '(offset, st) := gcov_read_unsigned st in
             read_symbol base orig version force t fuel (stack_entry n offset :: stack) update (st, m)) (st, m)
        = Ok (st', m') /\ ready version st' vs rest /\
       holds m0 (top_of n stack) (if force || update then eff_calls n stack cs cur else cur) m').
    { induction cs as [|[[lk callee] c] cs IHcs]; intros sta ma cura Incl Ra Ha.
      - exists sta, ma. cbn. split; [reflexivity|split; [exact Ra|]]. destruct (force || update); auto.
      - cbn [length rep]. cbn [flat_map] in Ra. rewrite flat_map_app in Ra.
        cbn [flat_map evals] in Ra. rewrite <- !app_assoc in Ra. cbn [app] in Ra.
        destruct (rd_word _ _ _ _ _ Ra) as (stb & Eb & Rb); [apply gco_range|].
        rewrite Eb. cbn [obind]. fold (entry n lk).
        destruct (Hc (lk, callee) c (Incl _ _ (or_introl eq_refl))) as [Icallee Enc]. cbn [snd] in Icallee.
        pose proof (depth_child (lk, callee) c h tot ts pos calls (Incl _ _ (or_introl eq_refl))) as Dc.
        assert (Dc' : (depth c <= fuel)%nat) by (revert D Dc; clear; intros; lia).
        destruct (name_at_ix callee Icallee) as [Nc Bc].
        destruct (rd_word _ _ _ _ _ Rb) as (stc & Ec & Rc); [exact Bc|].
        destruct (IH c callee (entry n lk :: stack) stc ma cura _ rest Dc' Enc Rc)
          as (std & ste & me & Ed & (stf & Ef & X & Y & W)).
        { rewrite top_of_nested. exact Ha. }
        destruct fuel as [|fuel']; [destruct c; cbn in Dc'; lia|].
        cbn [read_symbol]. cbn [andb obind]. rewrite Ec. cbn [obind]. rewrite Nc. cbn [obind].
        rewrite Ed. cbn [obind]. rewrite Ef. cbn [obind]. rewrite !zlen_to_nat.
        cbn [Nat.pred] in X.
        match goal with |- context [ obind (obind ?a ?f) _ ] => change (obind a f) with
          (let! x := a in f x) end.
        match type of X with ?lhs = _ => match goal with |- context [ obind ?y _ ] => change y with lhs end end.
        rewrite X. cbn [obind].
        rewrite top_of_nested in W.
        destruct (IHcs ste me _ (fun k c I => Incl k c (or_intror I)) Y W) as (st' & m' & P1 & P2 & P3).
        exists st', m'. split; [exact P1|]. split; [exact P2|].
        destruct (force || update); exact P3. }
    destruct (G calls st2 m2 _ (fun k c I => I) B C) as (st' & m' & P1 & P2 & P3).
    exists st', m'. split; [exact E0|]. exists st1. split; [exact E1|].
    rewrite A. cbn [obind]. split; [exact P1|]. split; [exact P2|].
    rewrite eff_sym_eq. cbn [s_pos s_calls]. destruct (force || update); exact P3.
  Qed.
End Read.
