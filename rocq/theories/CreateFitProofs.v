(** Proofs for C64, part three: the profile that is computed fits the file format. *)
From Verif Require Import Base ZMap AssocFold SymbolModel SymbolSpec SymbolProofs SymbolProps SrcOffsetModel
  ElideModel ElideProofs AddrModel SampleModel ProfileModel AfdoSpec.

Lemma In_aset' {K V} (eqb : K -> K -> bool) k (v : V) m k2 v2 :
  In (k2, v2) (aset eqb k v m) -> v2 = v /\ (k2 = k \/ exists v3, In (k2, v3) m) \/ In (k2, v2) m.
Proof.
  induction m as [|[k' v'] m IH]; cbn [aset In].
  - intros [E|[]]. injection E as <- <-. auto.
  - destruct (eqb k k').
    + cbn [In]. intros [E|H]; [injection E as <- <-; left; eauto|auto].
    + cbn [In]. intros [E|H]; [injection E as <- <-; auto|]. destruct (IH H) as [[-> [->|[v3 H3]]]|H']; eauto 6.
Qed.

Section Shape.
  Variables (L : Z -> Prop) (N T : name -> Prop).
  Definition pos_shape (pos : list (Z * pinfo)) : Prop :=
    forall l i, In (l, i) pos -> L l /\ forall n c, In (n, c) (p_targets i) -> T n.
  Inductive shape : symbol -> Prop :=
  | shape_intro h t ts pos calls : is_u64 ts -> pos_shape pos ->
      (forall l n c, In ((l, n), c) calls -> L l /\ N n /\ shape c) -> shape (Sym h t ts pos calls).

  Lemma shape0 : shape sym0.
  Proof. constructor; [unfold is_u64; lia|intros ? ? []|intros ? ? ? []]. Qed.
  Lemma pget_shape l pos : pos_shape pos -> forall n c, In (n, c) (p_targets (pget l pos)) -> T n.
  Proof.
    intros P n c. unfold pget. destruct (aget Z.eqb l pos) eqn:E; [|intros []].
    apply (aget_In Z.eqb Z_eqb_reflect) in E. destruct (P _ _ E) as [_ H]. apply H.
  Qed.
  Lemma pos_shape_aset l i pos : pos_shape pos -> L l -> (forall n c, In (n, c) (p_targets i) -> T n) ->
    pos_shape (aset Z.eqb l i pos).
  Proof.
    intros P Hl Hi l2 i2 I. apply In_aset' in I. destruct I as [[-> [->|[v3 I]]]|I]; auto.
    split; auto. apply (P _ _ I).
  Qed.
  Lemma cget_shape k calls : (forall l n c, In ((l, n), c) calls -> L l /\ N n /\ shape c) -> shape (cget k calls).
  Proof.
    intros P. unfold cget. destruct (aget callsite_eqb k calls) eqn:E; [|apply shape0].
    apply (aget_In callsite_eqb callsite_eqb_spec) in E. destruct k as [l n]. apply (P _ _ _ E).
  Qed.
  Lemma set_pos_shape l f s : shape s -> L l ->
    (forall i, (forall n c, In (n, c) (p_targets i) -> T n) -> forall n c, In (n, c) (p_targets (f i)) -> T n) ->
    shape (set_pos l f s).
  Proof.
    intros S Hl Hf. destruct S as [h t ts pos calls U P C]. cbn [set_pos]. constructor; auto.
    apply pos_shape_aset; auto. apply Hf. apply pget_shape. auto.
  Qed.

  Variable base : Z -> Z.
  Definition loc_ok (i : sinfo) : Prop := si_invalid i = false -> L (si_offset base i).
  (** all locations, and the names of the inlined functions *)
  Definition stack_ok (st : list sinfo) : Prop := Forall loc_ok st /\ Forall (fun i => N (si_func i)) (removelast st).

  Lemma on_stack_shape count k : (forall s, shape s -> shape (k s)) -> forall outer, Forall loc_ok outer ->
    Forall (fun i => N (si_func i)) (tl outer) ->
    forall s, shape s -> shape (on_stack_node base true count k outer s).
  Proof.
    intros Hk. induction outer as [|i outer IH]; intros F FN s S.
    - cbn [on_stack_node]. apply Hk. destruct S; constructor; auto.
    - cbn [on_stack_node]. assert (S' : shape (add_total count s)) by (destruct S; constructor; auto).
      destruct outer as [|j rest]; [auto|]. inversion F as [|? ? Fi F']; subst. cbn [tl] in FN.
      inversion FN as [|? ? Nj FN']; subst.
      cbn [andb]. destruct (si_invalid i) eqn:IV; [auto|].
      destruct S' as [h t ts pos calls U P C]. constructor; auto.
      intros l n c I. apply In_aset' in I. destruct I as [[-> H]|I]; [|eauto].
      assert (K : L (si_offset base i) /\ N (si_func j)) by (split; [apply Fi; auto|exact Nj]).
      assert (K' : L l /\ N n).
      { destruct H as [E|[v3 I]]; [injection E as -> ->; auto|]. destruct (C _ _ _ I) as (? & ? & _). auto. }
      split; [apply K'|]. split; [apply K'|]. apply IH; auto. apply cget_shape. auto.
  Qed.
  Lemma stack_ok_rev st : stack_ok st -> Forall loc_ok (rev st) /\ Forall (fun i => N (si_func i)) (tl (rev st)).
  Proof.
    intros [A B]. split; [apply Forall_rev; auto|].
    destruct st as [|x st]; [constructor|]. destruct (@exists_last _ (x :: st)) as (l & y & E); [discriminate|].
    rewrite E in *. rewrite removelast_last in B. rewrite rev_app_distr. cbn. apply Forall_rev. exact B.
  Qed.

  Definition heap_shape (m : smap) : Prop := Forall shape (sm_heap m).
  Lemma update_shape n f m m' : (forall s, shape s -> shape (f s)) -> heap_shape m -> sm_update n f m = Ok m' -> heap_shape m'.
  Proof.
    intros Hf H. unfold sm_update. destruct (aget name_eqb n (sm_names m)); [|discriminate].
    destruct (nth_error (sm_heap m) n0) eqn:E; [|discriminate]. intros [= <-]. unfold heap_shape in *. cbn [sm_heap].
    apply set_nth_Forall; auto. apply Hf. rewrite Forall_forall in H. apply H. eapply nth_error_In; eauto.
  Qed.

  Lemma source_shape n src c i m m' : stack_ok src -> heap_shape m ->
    AddSourceCount base true n src c i m = Ok m' -> heap_shape m'.
  Proof.
    intros F H. unfold AddSourceCount. destruct src as [|leaf rest]; [congruence|].
    apply update_shape; auto. apply on_stack_shape; [|apply (stack_ok_rev _ F)|apply (stack_ok_rev _ F)].
    intros s S. cbn [andb]. destruct (si_invalid leaf) eqn:IV; auto. apply set_pos_shape; auto.
    destruct F as [F _]. inversion F as [|? ? Fl _]; subst. apply Fl; auto.
  Qed.
  Lemma target_shape orig n src t c m m' : stack_ok src -> T (orig t) -> heap_shape m ->
    AddIndirectCallTarget base orig true n src t c m = Ok m' -> heap_shape m'.
  Proof.
    intros F Ht H. unfold AddIndirectCallTarget. destruct src as [|leaf rest]; [congruence|].
    apply update_shape; auto. apply on_stack_shape; [|apply (stack_ok_rev _ F)|apply (stack_ok_rev _ F)].
    intros s S. cbn [andb]. destruct (si_invalid leaf) eqn:IV; auto. apply set_pos_shape; auto.
    - destruct F as [F _]. inversion F as [|? ? Fl _]; subst. apply Fl; auto.
    - intros i Hi n0 c0. cbn [p_targets]. intros I. apply In_aset' in I.
      destruct I as [[-> [->|[v3 I]]]|I]; eauto.
  Qed.
  Lemma entry_shape n h t m m' : heap_shape m -> AddSymbolEntryCount n h t m = Ok m' -> heap_shape m'.
  Proof. apply update_shape. intros s S. destruct S; constructor; auto. Qed.
  Lemma ts_shape n ts m m' : is_u64 ts -> heap_shape m -> AddSymbolTimestamp n ts m = Ok m' -> heap_shape m'.
  Proof. intros U. apply update_shape. intros s S. destruct S; constructor; auto. Qed.

  Lemma targets_add_shape s : forall d, (forall n c, In (n, c) d -> T n) -> (forall n c, In (n, c) s -> T n) ->
    forall n c, In (n, c) (targets_add d s) -> T n.
  Proof.
    unfold targets_add. induction s as [|[t v] s IH]; intros d D S; [exact D|]. cbn [fold_left].
    apply IH; [|intros; eapply S; right; eauto]. intros n c I. apply In_aset' in I.
    destruct I as [[-> [->|[v3 I]]]|I]; [exact (S t v (or_introl eq_refl))|eauto|eauto].
  Qed.
  Lemma pos_add_shape s : forall d, pos_shape d -> pos_shape s -> pos_shape (pos_add d s).
  Proof.
    unfold pos_add. induction s as [|[l i] s IH]; intros d D S; [exact D|]. cbn [fold_left].
    apply IH; [|intros l2 i2 I2; exact (S _ _ (or_intror I2))]. destruct (S l i (or_introl eq_refl)) as [Hl Hi].
    apply pos_shape_aset; auto. cbn [pinfo_add p_targets]. apply targets_add_shape; auto. apply pget_shape; auto.
  Qed.
  Lemma merge_shape s : shape s -> forall d, shape d -> shape (merge d s).
  Proof.
    induction s as [h t ts pos calls IH] using symbol_ind'. intros S d D. rewrite merge_eq. cbn [s_head s_total s_pos s_calls].
    inversion S as [? ? ? ? ? U P C]; subst. destruct D as [h' t' ts' pos' calls' U' P' C']. cbn [s_head s_total s_pos s_calls s_ts].
    constructor; auto; [apply pos_add_shape; auto|]. unfold calls_merge. clear S U P U' P'.
    revert calls' C'. induction calls as [|[k c] calls IHc]; intros d C'; [exact C'|]. cbn [fold_left].
    apply IHc.
    - intros k0 c0 I0. apply (IH k0 c0). right. exact I0.
    - intros l0 n0 c0 I0. apply (C l0 n0 c0). right. exact I0.
    - destruct k as [lk nk]. destruct (C lk nk c (or_introl eq_refl)) as (K1 & K2 & K3).
      intros l n c2 I. apply In_aset' in I. destruct I as [[-> H]|I]; [|eauto].
      assert (K' : L l /\ N n).
      { destruct H as [E|[v3 I]]; [injection E as -> ->; auto|]. destruct (C' _ _ _ I) as (? & ? & _). auto. }
      split; [apply K'|]. split; [apply K'|]. apply (IH (lk, nk) c); [left; reflexivity|auto|]. apply cget_shape. auto.
  Qed.
  Lemma elide_shape orig ys : forall m m', heap_shape m -> elide_all_of orig ys m = Ok m' -> heap_shape m'.
  Proof.
    induction ys as [|y ys IH]; intros m m' H; cbn [elide_all_of]; [congruence|].
    destruct (elide_one orig m y) as [m1| |] eqn:E; try discriminate. cbn [obind]. apply IH.
    unfold elide_one in E. destruct (aget name_eqb y (sm_names m)) as [i|]; [|discriminate].
    destruct (nth_error (sm_heap m) i) as [sym|] eqn:Ei; [|discriminate].
    assert (Hs : shape sym).
    { unfold heap_shape in H. rewrite Forall_forall in H. apply H. eapply nth_error_In; eauto. }
    assert (H0 : Forall shape (sm_heap m ++ [sym0])) by (apply Forall_app; split; auto using shape0).
    assert (G : forall j names2 heap1, Forall shape heap1 ->
       match nth_error heap1 j with
       | None => UB
       | Some dst => Ok (SMap (map (fun '(n, x) => (n, if Nat.eqb x i then j else x)) names2) (set_nth j (merge dst sym) heap1))
       end = Ok m1 -> heap_shape m1).
    { intros j names2 heap1 Hh. destruct (nth_error heap1 j) as [dst|] eqn:Ej; [|discriminate]. intros [= <-].
      unfold heap_shape. cbn [sm_heap]. apply set_nth_Forall; auto. apply merge_shape; auto.
      rewrite Forall_forall in Hh. apply Hh. eapply nth_error_In; eauto. }
    destruct (aget name_eqb (orig y) _) as [j|]; [destruct (Nat.eqb j i)|]; first [exact (G _ _ _ H0 E)|exact (G _ _ _ H E)].
  Qed.

  Variables (orig : name -> name) (symtab : list (Z * (name * Z))) (stack_of : Z -> list sinfo) (dup : sinfo -> Z)
    (use_lbr : bool) (emit : Z -> bool).
  Hypothesis TOK : forall a n, GetSymbolNameByStartAddr symtab a = Some n -> T (orig n).

  Lemma touch_shape n sts : Forall stack_ok sts -> forall m m', heap_shape m ->
    touch_insts base n sts m = Ok m' -> heap_shape m'.
  Proof.
    induction 1 as [|st sts F _ IH]; intros m m' H; cbn [touch_insts]; [congruence|].
    destruct (match st with [] => Ok m | _ => AddSourceCount base true n st 0 1 m end) as [m1| |] eqn:E; try discriminate.
    cbn [obind]. apply IH. destruct st; [congruence|]. eapply source_shape; eauto.
  Qed.
  Lemma inst_info_In {A} (im : Z * list A) a x : inst_info im a = Some x -> In x (snd im).
  Proof. unfold inst_info. destruct (inst_lookup _ _ _); [|discriminate]. apply nth_error_In. Qed.
  Lemma counts_shape n im l : Forall stack_ok (snd im) -> forall m m', heap_shape m ->
    add_counts_loop base dup n im l m = Ok m' -> heap_shape m'.
  Proof.
    intros F. induction l as [|[a c] l IH]; intros m m' H; cbn [add_counts_loop]; [congruence|].
    destruct (inst_info im a) as [st|] eqn:E; [|cbn [obind]; apply IH; auto].
    apply inst_info_In in E. rewrite Forall_forall in F. specialize (F _ E).
    destruct st as [|leaf st]; [cbn [obind]; apply IH; auto|].
    destruct (AddSourceCount base true n (leaf :: st) _ 0 m) as [m1| |] eqn:E1; try discriminate. cbn [obind].
    apply IH. eapply source_shape; eauto.
  Qed.
  Lemma branches_shape n im l : Forall stack_ok (snd im) -> forall m m', heap_shape m ->
    add_branches base orig symtab n im l m = Ok m' -> heap_shape m'.
  Proof.
    intros F. induction l as [|[[f t] c] l IH]; intros m m' H; cbn [add_branches]; [congruence|].
    destruct (inst_info im f) as [st|] eqn:E; [|cbn [obind]; apply IH; auto].
    apply inst_info_In in E. rewrite Forall_forall in F. specialize (F _ E).
    destruct (GetSymbolNameByStartAddr symtab t) as [callee|] eqn:Ec; [|cbn [obind]; apply IH; auto].
    destruct (sm_find m callee); [|cbn [obind]; apply IH; auto].
    destruct (AddSymbolEntryCount callee c 0 m) as [m1| |] eqn:E1; try discriminate. cbn [obind].
    destruct (AddIndirectCallTarget base orig true n st callee c m1) as [m2| |] eqn:E2; try discriminate. cbn [obind].
    apply IH. eapply target_shape; [exact F|exact (TOK _ _ Ec)| |exact E2]. eapply entry_shape; [exact H|exact E1].
  Qed.

  Variable ps : profs.
  Hypothesis PTS : forall n p, In (n, p) ps -> is_u64 (pm_ts p).
  Hypothesis PST : forall n p a, In (n, p) ps -> pm_start p <= a < pm_end p -> stack_ok (stack_of a).

  Lemma process_shape n p m m' : In (n, p) ps -> heap_shape m ->
    ProcessPerFunctionProfile base orig symtab stack_of dup use_lbr n p m = Ok m' -> heap_shape m'.
  Proof.
    intros I H. unfold ProcessPerFunctionProfile.
    assert (F : Forall stack_ok (snd (build_inst_map stack_of (pm_start p) (pm_end p)))).
    { unfold build_inst_map. destruct (Z.leb_spec (pm_end p) (pm_start p)); cbn [snd]; [constructor|].
      apply Forall_forall. intros st Is. apply in_map_iff in Is. destruct Is as (i & <- & Ii). apply in_seq in Ii.
      eapply PST; eauto. lia. }
    destruct (touch_insts _ _ _ _) as [m1| |] eqn:E1; try discriminate. cbn [obind]. apply touch_shape in E1; auto.
    destruct (AddSymbolTimestamp n (pm_ts p) m1) as [m2| |] eqn:E2; try discriminate. cbn [obind]. apply ts_shape in E2; eauto.
    assert (G : forall cs m3, (let! m := add_counts_loop base dup n (build_inst_map stack_of (pm_start p) (pm_end p)) cs m2 in
       add_branches base orig symtab n (build_inst_map stack_of (pm_start p) (pm_end p)) (pm_branch p) m) = Ok m3 -> heap_shape m3).
    { intros cs m3. destruct (add_counts_loop _ _ _ _ _ _) as [m4| |] eqn:E4; try discriminate. cbn [obind].
      apply counts_shape in E4; auto. apply branches_shape; auto. }
    destruct use_lbr; [|apply G]. destruct (pm_range p); [congruence|apply G].
  Qed.
  Lemma process_all_shape all l : (forall e, In e l -> In e ps) -> forall m m', heap_shape m ->
    process_all base orig symtab stack_of dup use_lbr emit all l m = Ok m' -> heap_shape m'.
  Proof.
    induction l as [|[n p] l IH]; intros S m m' H; cbn [process_all]; [congruence|].
    destruct (emit (part_count orig all n)).
    - destruct (ProcessPerFunctionProfile _ _ _ _ _ _ _ _ _) as [m1| |] eqn:E; try discriminate. cbn [obind].
      apply IH; [intros; apply S; right; auto|]. eapply process_shape; eauto. apply S. left. auto.
    - cbn [obind]. apply IH; auto. intros; apply S; right; auto.
  Qed.
  Lemma add_symbols_shape al all (l : profs) : forall m, heap_shape m ->
    heap_shape (fold_left (fun m e => if emit (part_count orig all (fst e)) then AddSymbol (al (fst e)) (fst e) m else m) l m).
  Proof.
    induction l as [|e l IH]; intros m H; [exact H|]. cbn [fold_left]. apply IH.
    destruct (emit _); auto. unfold AddSymbol. destruct (aget _ _ _); auto. unfold heap_shape in *. cbn [sm_heap].
    apply Forall_app. split; auto using shape0.
  Qed.
  Theorem compute_shape al m' :
    ComputeProfile base orig symtab stack_of dup use_lbr emit al ps (SMap [] []) = Ok m' -> heap_shape m'.
  Proof.
    unfold ComputeProfile. destruct (process_all _ _ _ _ _ _ _ _ _ _) as [m1| |] eqn:E; try discriminate. cbn [obind].
    apply process_all_shape in E; auto; [apply elide_shape; auto|]. apply add_symbols_shape. constructor.
  Qed.
End Shape.

Lemma shape_fits version base orig s : sym_ok s ->
  shape (loc_fits base) (fun n => name_fits version n /\ plain n) (fun n => name_fits version n /\ plain n /\ orig n = n) s ->
  fits version base orig s.
Proof.
  induction s as [h t ts pos calls IH] using symbol_ind'. intros K S.
  inversion K as [? ? ? ? ? K1 K2 K3 K4 K5]; subst. inversion S as [? ? ? ? ? U P C]; subst. destruct K3 as [K3 K6].
  rewrite Forall_forall in K6. constructor; auto.
  - intros l i I. destruct (P _ _ I) as [P1 P2]. destruct (K6 _ I) as (K7 & _ & K8). auto.
  - intros l n c I. destruct (C _ _ _ I) as (C1 & [C2 C3] & C4). split; [exact C1|]. split; [exact C2|]. split; [exact C3|].
    eapply IH; eauto.
Qed.
