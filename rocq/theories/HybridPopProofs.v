(** PopulateSymbolRetainingHotInlineStacks adds every source node where it belongs. *)
From Verif Require Import Base AssocFold SymbolModel SymbolSpec SymbolProofs AttribProofs AfdoModel AfdoReadProofs
  FlattenModel FlattenSpec FlattenPureProofs FlattenMapProofs FlattenAllProofs HybridModel HybridSpec HybridViewProofs HybridBodyProofs.

Definition cold (thr : Z) (s : symbol) : bool := s_total s <=? thr.
Definition cold_calls (thr : Z) (s : symbol) := filter (fun kc => cold thr (snd kc)) (s_calls s).
Definition node_own (thr : Z) (s : symbol) : owndata := (s_head s, s_total s, flatten_sites (cold_calls thr s) (s_pos s)).

Fixpoint pop_loop (thr : Z) (rec : symbol -> nat -> path -> smap * Z * Z -> outcome (smap * Z * Z)) (i : nat) (p : path)
    (cs : list (callsite * symbol)) (m : smap) (tot num : Z) (pos : list (Z * pinfo)) : outcome (smap * Z * Z * list (Z * pinfo)) :=
  match cs with
  | [] => Ok (m, tot, num, pos)
  | (k, c) :: cs =>
      let tot := add64 tot 1 in
      if s_total c <=? thr then
        let num := add64 num 1 in
        let pos := flatten_site (fst k) (snd k) (s_head c) pos in
        let m := AddSymbol [] (snd k) m in
        match aget name_eqb (snd k) (sm_names m) with
        | None => UB
        | Some j => let! '(m, tot, num) := rec c j [] (m, tot, num) in pop_loop thr rec i p cs m tot num pos
        end
      else
        let m := node_upd i p (ins_child k) m in
        let! '(m, tot, num) := rec c i (p ++ [k]) (m, tot, num) in pop_loop thr rec i p cs m tot num pos
  end.
Lemma populate_eq thr h t ts pos cs i p m tot num : populate thr (Sym h t ts pos cs) i p (m, tot, num) =
  let! '(m, tot, num, pos) := pop_loop thr (populate thr) i p cs (node_upd i p (add_ht h t) m) tot num pos in
  Ok (node_upd i p (add_pos pos) m, tot, num).
Proof.
  cbn [populate]. f_equal. generalize (node_upd i p (add_ht h t) m) as m0. revert tot num pos.
  induction cs as [|[k c] cs IH]; intros tot num pos m0; [reflexivity|]. cbn [pop_loop]. destruct (s_total c <=? thr).
  - destruct (aget name_eqb (snd k) (sm_names (AddSymbol [] (snd k) m0))) as [j|]; [|reflexivity].
    destruct (populate thr c j [] (AddSymbol [] (snd k) m0, add64 tot 1, add64 num 1)) as [[[m1 t1] n1]| |]; cbn [obind]; [|reflexivity|reflexivity]. apply IH.
  - destruct (populate thr c i (p ++ [k]) (node_upd i p (ins_child k) m0, add64 tot 1, num)) as [[[m1 t1] n1]| |]; cbn [obind]; [|reflexivity|reflexivity]. apply IH.
Qed.

Definition root_entry (e : name * path * symbol) : bool := match snd (fst e) with [] => true | _ => false end.
Definition placed_calls (thr : Z) (n : name) (p : path) (cs : list (callsite * symbol)) :=
  flat_map (fun kc => if s_total (snd kc) <=? thr then placed thr (snd (fst kc)) [] (snd kc) else placed thr n (p ++ [fst kc]) (snd kc)) cs.
Lemma placed_eq thr n p s : placed thr n p s = (n, p, s) :: placed_calls thr n p (s_calls s).
Proof. destruct s; reflexivity. Qed.
Lemma placed_calls_cons thr n p k c cs : placed_calls thr n p ((k, c) :: cs) =
  (if s_total c <=? thr then placed thr (snd k) [] c else placed thr n (p ++ [k]) c) ++ placed_calls thr n p cs.
Proof. reflexivity. Qed.
Definition nroots (L : list (name * path * symbol)) : Z := zlen (filter root_entry L).
Lemma nroots_app a b : nroots (a ++ b) = nroots a + nroots b.
Proof. unfold nroots, zlen. rewrite filter_app, app_length. lia. Qed.
Lemma nroots_cons e b : nroots (e :: b) = (if root_entry e then 1 else 0) + nroots b.
Proof. unfold nroots, zlen. cbn [filter]. destruct (root_entry e); cbn [length]; lia. Qed.
Lemma eqm_step a b c d : eqm a (b + 1) -> eqm d (a + c) -> eqm d (b + (1 + c)).
Proof. intros [x ->] [y ->]. exists (x + y). lia. Qed.
Lemma eqm_inc a : eqm (add64 a 1) (a + 1). Proof. apply eqm_u64. Qed.

Section Pop.
  Context (thr : Z) {M : Type} (eqv : M -> M -> Prop) (op : M -> M -> M) (e : M) (obs : owndata -> M).
  Hypothesis eqv_refl : forall a, eqv a a.
  Hypothesis eqv_sym : forall a b, eqv a b -> eqv b a.
  Hypothesis eqv_trans : forall a b c, eqv a b -> eqv b c -> eqv a c.
  Hypothesis op_cong : forall a b c d, eqv a b -> eqv c d -> eqv (op a c) (op b d).
  Hypothesis op_comm : forall a b, eqv (op a b) (op b a).
  Hypothesis op_assoc : forall a b c, eqv (op a (op b c)) (op (op a b) c).
  Hypothesis op_id : forall a, eqv (op a e) a.
  Hypothesis obs_0 : eqv (obs own0) e.
  Hypothesis obs_add : forall a b, own_ok a -> own_ok b -> eqv (obs (own_add a b)) (op (obs a) (obs b)).

  Definition vobs (m : smap) (G : name) (q : path) : M := match view m G q with Some o => obs o | None => e end.
  Definition csum (G : name) (q : path) (L : list (name * path * symbol)) : M :=
    fold_right (fun x a => if here (fst (fst x)) (snd (fst x)) G q then op (obs (node_own thr (snd x))) a else a) e L.
  Lemma csum_app G q a b : eqv (csum G q (a ++ b)) (op (csum G q a) (csum G q b)).
  Proof.
    induction a as [|x a IH]; cbn [app csum fold_right]; [apply eqv_sym; eapply eqv_trans; [apply op_comm|apply op_id]|]. fold (csum G q (a ++ b)). fold (csum G q a).
    destruct (here _ _ G q); [|exact IH]. eapply eqv_trans; [apply op_cong; [apply eqv_refl|exact IH]|apply op_assoc].
  Qed.
  Lemma vobs_ext m m' G q : view m' G q = view m G q -> vobs m' G q = vobs m G q.
  Proof. unfold vobs. intros ->. reflexivity. Qed.
  Lemma vobs_default m m' G q : view m' G q = Some (match view m G q with Some o => o | None => own0 end) -> eqv (vobs m' G q) (vobs m G q).
  Proof. unfold vobs. intros ->. destruct (view m G q); [apply eqv_refl|exact obs_0]. Qed.

  Definition adds (L : list (name * path * symbol)) (m m' : smap) : Prop :=
    grows m m' /\ (forall G q, view m' G q <> None <-> view m G q <> None \/ In (G, q) (map fst L)) /\
    (forall G q, eqv (vobs m' G q) (op (vobs m G q) (csum G q L))).
  Lemma adds_trans a b m m' m'' : adds a m m' -> adds b m' m'' -> adds (a ++ b) m m''.
  Proof.
    intros (A1 & A2 & A3) (B1 & B2 & B3). split; [exact (grows_trans _ _ _ A1 B1)|]. split.
    - intros G q. rewrite B2, A2, map_app, in_app_iff. clear. tauto.
    - intros G q. eapply eqv_trans; [apply B3|]. eapply eqv_trans; [apply op_cong; [apply A3|apply eqv_refl]|].
      eapply eqv_trans; [apply eqv_sym, op_assoc|]. apply op_cong; [apply eqv_refl|apply eqv_sym, csum_app].
  Qed.

  Definition pop_ok (s : symbol) : Prop := forall F i p m tot num, smap_ok m -> aget name_eqb F (sm_names m) = Some i -> view m F p <> None ->
    exists m' tot' num', populate thr s i p (m, tot, num) = Ok (m', tot', num') /\ adds (placed thr F p s) m m' /\
      eqm tot' (tot + zlen (placed_calls thr F p (s_calls s))) /\ eqm num' (num + nroots (placed_calls thr F p (s_calls s))).

  Lemma loop_ok F i p cs : (forall k c, In (k, c) cs -> sym_ok c /\ pop_ok c) ->
    forall m tot num pos, smap_ok m -> aget name_eqb F (sm_names m) = Some i -> view m F p <> None ->
    exists m' tot' num', pop_loop thr (populate thr) i p cs m tot num pos = Ok (m', tot', num', flatten_sites (filter (fun kc => cold thr (snd kc)) cs) pos) /\
      adds (placed_calls thr F p cs) m m' /\
      eqm tot' (tot + zlen (placed_calls thr F p cs)) /\ eqm num' (num + nroots (placed_calls thr F p cs)).
  Proof.
    induction cs as [|[k c] cs IH]; intros K m tot num pos O E V; cbn [pop_loop filter snd].
    - exists m, tot, num. split; [reflexivity|]. split; [|split; rewrite Z.add_0_r; apply eqm_refl]. split; [apply grows_refl; exact O|]. split.
      + intros G q. cbn. tauto.
      + intros G q. cbn [placed_calls flat_map csum fold_right]. apply eqv_sym, op_id.
    - destruct (K k c (or_introl eq_refl)) as [OC PC]. assert (K' : forall k c, In (k, c) cs -> sym_ok c /\ pop_ok c) by (intros k0 c0 H; apply (K k0 c0); right; exact H).
      change (cold thr c) with (s_total c <=? thr). rewrite placed_calls_cons.
      destruct (s_total c <=? thr) eqn:C.
      + pose proof (grows_add (snd k) m O) as GA. destruct (add_self (snd k) m O) as (j & Ej & s & Es). rewrite Ej. set (m1 := AddSymbol [] (snd k) m) in *.
        assert (O1 : smap_ok m1) by apply GA. assert (V1 : view m1 (snd k) [] <> None) by (unfold view; rewrite (at_name m1 _ j Ej), Es; discriminate).
        destruct (PC (snd k) j [] m1 (add64 tot 1) (add64 num 1) O1 Ej V1) as (m2 & t2 & n2 & R & A & T & N). rewrite R. cbn [obind].
        assert (AD : adds (placed thr (snd k) [] c) m m2).
        { destruct A as (A1 & A2 & A3). split; [exact (grows_trans _ _ _ GA A1)|]. split.
          - intros G q. rewrite A2. unfold m1. rewrite (view_add _ _ _ _ O). rewrite placed_eq. cbn [map fst In]. destruct (here_spec (snd k) [] G q) as [[-> ->]|NH]; [split; [right; left; reflexivity|left; discriminate]|reflexivity].
          - intros G q. eapply eqv_trans; [apply A3|]. apply op_cong; [|apply eqv_refl]. pose proof (view_add (snd k) m G q O) as W. fold m1 in W. destruct (here _ _ G q); [exact (vobs_default _ _ _ _ W)|rewrite (vobs_ext _ _ _ _ W); apply eqv_refl]. }
        pose proof AD as ((O2 & G2 & V2) & _). destruct (IH K' m2 t2 n2 (flatten_site (fst k) (snd k) (s_head c) pos) O2 (G2 F i E) (V2 F p V)) as (m3 & t3 & n3 & R3 & A3 & T3 & N3).
        rewrite R3. exists m3, t3, n3. split; [reflexivity|]. split; [exact (adds_trans _ _ _ _ _ AD A3)|]. split.
        * rewrite zlen_app, placed_eq, zlen_cons. eapply eqm_trans; [exact T3|]. eapply eqm_trans; [apply eqm_add; [exact T|apply eqm_refl]|]. eapply eqm_trans; [apply eqm_add; [apply eqm_add; [apply eqm_inc|apply eqm_refl]|apply eqm_refl]|]. exists 0. lia.
        * rewrite nroots_app, placed_eq, nroots_cons. match goal with |- context [root_entry ?z] => change (root_entry z) with true end. cbv iota. eapply eqm_trans; [exact N3|]. eapply eqm_trans; [apply eqm_add; [exact N|apply eqm_refl]|]. eapply eqm_trans; [apply eqm_add; [apply eqm_add; [apply eqm_inc|apply eqm_refl]|apply eqm_refl]|]. exists 0. lia.
      + destruct (view_get m F i p E V) as (x & Nx & _). pose proof (grows_ins m F i p k x O E Nx) as GA. set (m1 := node_upd i p (ins_child k) m) in *.
        assert (O1 : smap_ok m1) by apply GA. assert (E1 : aget name_eqb F (sm_names m1) = Some i) by (apply GA; exact E).
        assert (W : forall G q, view m1 G q = if here F (p ++ [k]) G q then Some (match view m G q with Some o => o | None => own0 end) else view m G q) by (intros G q; exact (view_ins m F i p k x G q O E Nx)).
        assert (V1 : view m1 F (p ++ [k]) <> None) by (rewrite W; destruct (here_spec F (p ++ [k]) F (p ++ [k])) as [_|H]; [discriminate|tauto]).
        destruct (PC F i (p ++ [k]) m1 (add64 tot 1) num O1 E1 V1) as (m2 & t2 & n2 & R & A & T & N). rewrite R. cbn [obind].
        assert (AD : adds (placed thr F (p ++ [k]) c) m m2).
        { destruct A as (A1 & A2 & A3). split; [exact (grows_trans _ _ _ GA A1)|]. split.
          - intros G q. rewrite A2, W. rewrite placed_eq. cbn [map fst In]. destruct (here_spec F (p ++ [k]) G q) as [[-> ->]|NH]; [split; [right; left; reflexivity|left; discriminate]|reflexivity].
          - intros G q. eapply eqv_trans; [apply A3|]. apply op_cong; [|apply eqv_refl]. pose proof (W G q) as WG. destruct (here _ _ G q); [exact (vobs_default _ _ _ _ WG)|rewrite (vobs_ext _ _ _ _ WG); apply eqv_refl]. }
        pose proof AD as ((O2 & G2 & V2) & _). destruct (IH K' m2 t2 n2 pos O2 (G2 F i E) (V2 F p V)) as (m3 & t3 & n3 & R3 & A3 & T3 & N3).
        rewrite R3. exists m3, t3, n3. split; [reflexivity|]. split; [exact (adds_trans _ _ _ _ _ AD A3)|]. split.
        * rewrite zlen_app, placed_eq, zlen_cons. eapply eqm_trans; [exact T3|]. eapply eqm_trans; [apply eqm_add; [exact T|apply eqm_refl]|]. eapply eqm_trans; [apply eqm_add; [apply eqm_add; [apply eqm_inc|apply eqm_refl]|apply eqm_refl]|]. exists 0. lia.
        * rewrite nroots_app, placed_eq, nroots_cons. match goal with |- context [root_entry ?z] => assert (RE : root_entry z = false) by (unfold root_entry; cbn [fst snd]; destruct (p ++ [k]) eqn:Q; [apply app_eq_nil in Q as [_ Q]; discriminate|reflexivity]); rewrite RE end. cbv iota. eapply eqm_trans; [exact N3|]. eapply eqm_trans; [apply eqm_add; [exact N|apply eqm_refl]|]. exists 0. lia.
  Qed.

  Lemma pos_add_nil p : pos_add p [] = p. Proof. reflexivity. Qed.
  Lemma own_pos_ok pos : pos_ok pos -> own_ok (0, 0, pos).
  Proof. intros P. split; [apply u64_0|]. split; [apply u64_0|exact P]. Qed.
  Lemma nil_ok : pos_ok []. Proof. split; constructor. Qed.

  Lemma populate_ok s : sym_ok s -> pop_ok s.
  Proof.
    induction s as [h t ts pos cs IH] using symbol_ind'. intros OS F i p m tot num O E V. inversion OS as [? ? ? ? ? Hh Ht Hp Hn Hc]; subst. rewrite populate_eq.
    destruct (view_get m F i p E V) as (x & Nx & Vx). pose proof (ok_get m i p x O Nx) as Ox.
    assert (C1 : s_calls (add_ht h t x) = s_calls x) by (destruct x; reflexivity).
    assert (OA : sym_ok (add_ht h t x)) by (destruct Ox; cbn [add_ht]; constructor; auto using add64_range).
    pose proof (grows_upd m F i p (add_ht h t) x O E Nx C1 OA) as G1. set (m1 := node_upd i p (add_ht h t) m) in *.
    assert (W1 : forall G q, view m1 G q = if here F p G q then Some (own (add_ht h t x)) else view m G q) by (intros G q; exact (view_upd m F i p _ x G q O E Nx C1)).
    assert (O1 : smap_ok m1) by apply G1. assert (E1 : aget name_eqb F (sm_names m1) = Some i) by (apply G1; exact E). assert (V1 : view m1 F p <> None) by (apply G1; exact V).
    destruct (loop_ok F i p cs) with (m := m1) (tot := tot) (num := num) (pos := pos) as (m2 & t2 & n2 & R & A & T & N); auto.
    { intros k c H. split; [exact (Hc k c H)|]. apply (IH k c H). exact (Hc k c H). }
    rewrite R. cbn [obind]. set (body := flatten_sites (filter (fun kc => cold thr (snd kc)) cs) pos).
    assert (OB : pos_ok body).
    { apply flatten_sites_ok; [exact Hp|]. intros [k c] H. apply filter_In in H as [H _]. cbn [snd]. apply sym_ok_head. exact (Hc k c H). }
    destruct A as (A1 & A2 & A3). assert (O2 : smap_ok m2) by apply A1. assert (E2 : aget name_eqb F (sm_names m2) = Some i) by (apply A1; exact E1).
    destruct (view_get m2 F i p E2 (proj2 (proj2 A1) F p V1)) as (y & Ny & Vy). pose proof (ok_get m2 i p y O2 Ny) as Oy.
    assert (C2 : s_calls (add_pos body y) = s_calls y) by (destruct y; reflexivity).
    assert (OP : sym_ok (add_pos body y)) by (destruct Oy; cbn [add_pos]; constructor; auto; apply pos_ok_add; auto).
    pose proof (grows_upd m2 F i p (add_pos body) y O2 E2 Ny C2 OP) as G3. set (m3 := node_upd i p (add_pos body) m2) in *.
    assert (W3 : forall G q, view m3 G q = if here F p G q then Some (own (add_pos body y)) else view m2 G q) by (intros G q; exact (view_upd m2 F i p _ y G q O2 E2 Ny C2)).
    exists m3, t2, n2. split; [reflexivity|]. split; [|split; [exact T|exact N]]. split; [exact (grows_trans _ _ _ (grows_trans _ _ _ G1 A1) G3)|]. rewrite placed_eq. cbn [s_calls]. split.
    - intros G q. rewrite W3. cbn [map fst In]. destruct (here_spec F p G q) as [[-> ->]|NH].
      + split; [right; left; reflexivity|discriminate].
      + rewrite A2, W1. destruct (here_spec F p G q) as [H|_]; [contradiction|]. split; [tauto|]. intros [H|[H|H]]; [tauto| |tauto]. exfalso. apply NH. split; congruence.
    - intros G q. cbn [csum fold_right fst snd]. fold (csum G q (placed_calls thr F p cs)). destruct (here_spec F p G q) as [[-> ->]|NH].
      + unfold node_own, cold_calls. cbn [s_head s_total s_pos s_calls]. fold body.
        assert (X3 : eqv (vobs m3 F p) (op (vobs m2 F p) (obs (0, 0, body)))).
        { unfold vobs at 1. rewrite W3. destruct (here_spec F p F p) as [_|H]; [|tauto]. unfold vobs. rewrite Vy.
          eapply eqv_trans; [|apply obs_add; [exact (own_sym_ok y Oy)|exact (own_pos_ok body OB)]]. destruct Oy. cbn [add_pos own own_add s_head s_total s_pos]. unfold own, own_add. cbn [s_head s_total s_pos]. rewrite !add64_0_r by assumption. apply eqv_refl. }
        assert (X1 : eqv (vobs m1 F p) (op (vobs m F p) (obs (h, t, [])))).
        { unfold vobs at 1. rewrite W1. destruct (here_spec F p F p) as [_|H]; [|tauto]. unfold vobs. rewrite Vx.
          eapply eqv_trans; [|apply obs_add; [exact (own_sym_ok x Ox)|split; [exact Hh|split; [exact Ht|exact nil_ok]]]]. destruct Ox. unfold own, own_add. cbn [add_ht s_head s_total s_pos]. rewrite pos_add_nil. apply eqv_refl. }
        assert (XO : eqv (obs (h, t, body)) (op (obs (h, t, [])) (obs (0, 0, body)))).
        { eapply eqv_trans; [|apply obs_add; [split; [exact Hh|split; [exact Ht|exact nil_ok]]|exact (own_pos_ok body OB)]]. unfold own_add. rewrite !add64_0_r by assumption.
          assert (P : eqv (obs (h, t, body)) (obs (own_add (0, 0, body) (h, t, [])))) by (unfold own_add; rewrite !add64_0_l by assumption; apply eqv_refl).
          eapply eqv_trans; [exact P|]. eapply eqv_trans; [apply obs_add; [exact (own_pos_ok body OB)|split; [exact Hh|split; [exact Ht|exact nil_ok]]]|].
          eapply eqv_trans; [apply op_comm|]. apply eqv_sym. eapply eqv_trans; [|apply obs_add; [split; [exact Hh|split; [exact Ht|exact nil_ok]]|exact (own_pos_ok body OB)]]. unfold own_add. rewrite !add64_0_r by assumption. apply eqv_refl. }
        eapply eqv_trans; [exact X3|]. eapply eqv_trans; [apply op_cong; [apply A3|apply eqv_refl]|].
        eapply eqv_trans; [apply op_cong; [apply op_cong; [exact X1|apply eqv_refl]|apply eqv_refl]|].
        eapply eqv_trans; [|apply op_cong; [apply eqv_refl|apply op_cong; [apply eqv_sym; exact XO|apply eqv_refl]]].
        generalize (vobs m F p) (obs (h, t, [])) (csum F p (placed_calls thr F p cs)) (obs (0, 0, body)). intros a b c d.
        (* ((a b) c) d = a ((b d) c) *)
        eapply eqv_trans; [apply eqv_sym, op_assoc|]. eapply eqv_trans; [apply eqv_sym, op_assoc|]. apply op_cong; [apply eqv_refl|].
        eapply eqv_trans; [apply op_cong; [apply eqv_refl|apply op_comm]|]. apply op_assoc.
      + assert (X3 : vobs m3 G q = vobs m2 G q) by (apply vobs_ext; rewrite W3; destruct (here_spec F p G q); [contradiction|reflexivity]).
        assert (X1 : vobs m1 G q = vobs m G q) by (apply vobs_ext; rewrite W1; destruct (here_spec F p G q); [contradiction|reflexivity]).
        rewrite X3, <- X1. apply A3.
  Qed.

  (** The whole map. *)
  Definition all_placed (l : list (name * symbol)) := flat_map (fun ns => placed thr (fst ns) [] (snd ns)) l.
  Lemma scan_ok heap : Forall sym_ok heap -> forall names, (forall n i, In (n, i) names -> (i < length heap)%nat) ->
    forall m tot num, smap_ok m ->
    exists m' tot' num', hybrid_scan thr heap names (m, tot, num) = Ok (m', tot', num') /\
      adds (all_placed (functions (SMap names heap))) m m' /\
      eqm tot' (tot + zlen (all_placed (functions (SMap names heap))) - zlen names) /\
      eqm num' (num + nroots (all_placed (functions (SMap names heap))) - zlen names).
  Proof.
    intros OH names. induction names as [|[n i] names IH]; intros R m tot num O; cbn [hybrid_scan].
    - exists m, tot, num. split; [reflexivity|]. split; [|split; exists 0; unfold zlen, nroots; cbn; lia]. split; [apply grows_refl; exact O|]. split; [intros G q; cbn; tauto|].
      intros G q. cbn. apply eqv_sym, op_id.
    - assert (L : (i < length heap)%nat) by (apply (R n i); left; reflexivity). destruct (nth_error heap i) as [s|] eqn:Es; [|apply nth_error_None in Es; lia].
      assert (OS : sym_ok s) by (rewrite Forall_forall in OH; apply OH; eapply nth_error_In; exact Es).
      pose proof (grows_add n m O) as GA. destruct (add_self n m O) as (j & Ej & s1 & Es1). rewrite Ej. set (m1 := AddSymbol [] n m) in *.
      assert (O1 : smap_ok m1) by apply GA. assert (V1 : view m1 n [] <> None) by (unfold view; rewrite (at_name m1 _ j Ej), Es1; discriminate).
      destruct (populate_ok s OS n j [] m1 tot num O1 Ej V1) as (m2 & t2 & n2 & R2 & A & T & N). rewrite R2. cbn [obind].
      assert (AD : adds (placed thr n [] s) m m2).
      { destruct A as (A1 & A2 & A3). split; [exact (grows_trans _ _ _ GA A1)|]. split.
        - intros G q. rewrite A2. unfold m1. rewrite (view_add _ _ _ _ O). rewrite placed_eq. cbn [map fst In]. destruct (here_spec n [] G q) as [[-> ->]|NH]; [split; [right; left; reflexivity|left; discriminate]|reflexivity].
        - intros G q. eapply eqv_trans; [apply A3|]. apply op_cong; [|apply eqv_refl]. pose proof (view_add n m G q O) as W. fold m1 in W. destruct (here _ _ G q); [exact (vobs_default _ _ _ _ W)|rewrite (vobs_ext _ _ _ _ W); apply eqv_refl]. }
      destruct (IH (fun n0 i0 H => R n0 i0 (or_intror H)) m2 t2 n2) as (m3 & t3 & n3 & R3 & A3 & T3 & N3); [apply AD|].
      rewrite R3. exists m3, t3, n3. split; [reflexivity|].
      assert (FE : functions (SMap ((n, i) :: names) heap) = (n, s) :: functions (SMap names heap)) by (unfold functions; cbn [sm_names sm_heap flat_map fst snd]; rewrite Es; reflexivity).
      rewrite FE. unfold all_placed. cbn [flat_map fst snd]. fold (all_placed (functions (SMap names heap))). split; [exact (adds_trans _ _ _ _ _ AD A3)|]. split.
      + rewrite zlen_app, placed_eq, zlen_cons, zlen_cons. eapply eqm_trans; [exact T3|]. destruct T as [z ->]. exists z. lia.
      + rewrite nroots_app, placed_eq, nroots_cons, zlen_cons. match goal with |- context [root_entry ?z] => change (root_entry z) with true end. cbv iota. eapply eqm_trans; [exact N3|]. destruct N as [z ->]. exists z. lia.
  Qed.
End Pop.
