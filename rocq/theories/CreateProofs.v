(** Proofs for C64, part one: what is collected per function. *)
From Verif Require Import Base ByteModel ZMap SymbolModel SymbolSpec SymbolProofs ElideModel AddrModel AddrProps SampleModel
  SampleSpec SampleProofs SampleProps ProfileModel ProfileSpec ProfileProofs AfdoModel AfdoSpec CreateModel CreateSpec.
From Coq Require Import Permutation.

Lemma nameE (a b : name) : reflect (a = b) (name_eqb a b).
Proof. apply name_eqb_spec. Qed.

(** *** the symbol table *)
Section Table.
  Variable funcs : list (name * Z * Z).
  Hypothesis FOK : funcs_ok funcs.
  Notation tab := (st_map (BuildSymbolMap funcs)).

  Lemma filter_addr (l : list (name * Z * Z)) f : NoDup (map f_lo l) -> In f l ->
    filter (fun '(_, a, _) => a =? f_lo f) l = [f].
  Proof.
    induction l as [|g l IH]; intros N I; [destruct I|]. cbn [map] in N. inversion N as [|? ? NI N']; subst.
    cbn [filter]. destruct g as [[gn ga] gs]. cbn [f_lo fst snd] in *. destruct I as [<-|I].
    - change (f_lo (gn, ga, gs)) with ga. rewrite Z.eqb_refl. f_equal.
      match goal with |- ?x = [] => destruct x as [|h r] eqn:E end; auto. exfalso.
      assert (H : In h (filter (fun '(_, a, _) => a =? ga) l)) by (rewrite E; left; auto).
      apply filter_In in H. destruct H as [H1 H2]. destruct h as [[hn ha] hs].
      assert (ha = ga) by lia. subst. apply NI. apply in_map_iff. exists (hn, ga, hs). auto.
    - destruct (Z.eqb_spec ga (f_lo f)) as [E|E]; [|apply IH; auto].
      exfalso. apply NI. rewrite E. apply in_map. auto.
  Qed.

  Lemma tab_In a n z : In (a, (n, z)) tab <-> In (n, a, z) funcs.
  Proof.
    destruct FOK as (N1 & N2 & B & D).
    change (BuildSymbolMap funcs) with (read_symbols funcs).
    rewrite <- zfind_In by apply read_symbols_sorted. rewrite C17_first_symbol_kept.
    split.
    - intros H. destruct (filter _ funcs) as [|[[n' a'] z'] r] eqn:E; [discriminate|]. injection H as <- <-.
      assert (I : In (n', a', z') (filter (fun '(_, a0, _) => a0 =? a) funcs)) by (rewrite E; left; auto).
      apply filter_In in I. destruct I as [I Q]. assert (a' = a) by lia. subst. auto.
    - intros I. change a with (f_lo (n, a, z)) at 1. rewrite (filter_addr funcs) by auto. reflexivity.
  Qed.

  Lemma tab_disjoint : disjoint_ranges tab.
  Proof.
    destruct FOK as (N1 & N2 & B & D). split.
    - intros a n z I. apply tab_In in I. apply B in I. unfold f_lo, f_hi in I. cbn in I. lia.
    - intros a n z a' n' z' I J L. apply tab_In in I. apply tab_In in J.
      specialize (D _ _ I J). unfold f_lo, f_hi in D. cbn in D. lia.
  Qed.

  Lemma alias_nil : st_alias (BuildSymbolMap funcs) = [].
  Proof.
    destruct FOK as (N1 & N2 & _). destruct (st_alias (BuildSymbolMap funcs)) as [|[x y] r] eqn:E; auto. exfalso.
    assert (I : In (x, y) (st_alias (read_symbols funcs))).
    { change (read_symbols funcs) with (BuildSymbolMap funcs). rewrite E. left; auto. }
    apply C17_aliases in I. destruct I as (bef & aft & a & z & e & z0 & rest & -> & F).
    assert (I : In (x, e, z0) (filter (fun '(_, a0, _) => a0 =? a) bef)) by (rewrite F; left; auto).
    apply filter_In in I. destruct I as [I Q]. assert (e = a) by lia. subst.
    rewrite map_app in N2. cbn [map] in N2. apply NoDup_remove_2 in N2. apply N2. apply in_or_app. left.
    apply in_map_iff. exists (x, a, z0). auto.
  Qed.

  Lemma info_Some v n lo hi : GetSymbolInfoByAddr tab v = Some (n, lo, hi) <->
    exists f, In f funcs /\ in_func f v = true /\ f_name f = n /\ f_lo f = lo /\ f_hi f = hi.
  Proof.
    change (BuildSymbolMap funcs) with (read_symbols funcs).
    rewrite C17_symbol_containing_address by exact tab_disjoint. change (read_symbols funcs) with (BuildSymbolMap funcs).
    split.
    - intros (z & I & -> & R). apply tab_In in I. exists (n, lo, z). unfold in_func, f_lo, f_hi, f_name. cbn [fst snd].
      repeat split; auto. apply andb_true_intro. lia.
    - intros ([[n' a] z] & I & R & <- & <- & <-). unfold in_func, f_lo, f_hi, f_name in *. cbn [fst snd] in *.
      exists z. rewrite tab_In. apply andb_prop in R. repeat split; auto; lia.
  Qed.
  Lemma info_None v : GetSymbolInfoByAddr tab v = None -> forall f, In f funcs -> in_func f v = false.
  Proof.
    intros H f I. destruct (in_func f v) eqn:E; auto.
    assert (X : GetSymbolInfoByAddr tab v = Some (f_name f, f_lo f, f_hi f)) by (apply info_Some; exists f; auto).
    congruence.
  Qed.
  Lemma name_inj f g : In f funcs -> In g funcs -> f_name f = f_name g -> f = g.
  Proof.
    destruct FOK as (N1 & _). clear -N1. induction funcs as [|h l IH]; intros I J E; [destruct I|].
    cbn [map] in N1. inversion N1 as [|? ? NI N']; subst. destruct I as [<-|I], J as [<-|J]; auto.
    - exfalso. apply NI. rewrite E. apply in_map. auto.
    - exfalso. apply NI. rewrite <- E. apply in_map. auto.
  Qed.
  Lemma in_func_unique f g v : In f funcs -> In g funcs -> in_func f v = true -> in_func g v = true -> f = g.
  Proof.
    intros I J A B.
    assert (X : GetSymbolInfoByAddr tab v = Some (f_name f, f_lo f, f_hi f)) by (apply info_Some; exists f; auto).
    assert (Y : GetSymbolInfoByAddr tab v = Some (f_name g, f_lo g, f_hi g)) by (apply info_Some; exists g; auto).
    apply name_inj; auto. congruence.
  Qed.
  Lemma start_Some v n : GetSymbolNameByStartAddr tab v = Some n <-> exists f, In f funcs /\ f_lo f = v /\ f_name f = n.
  Proof.
    unfold GetSymbolNameByStartAddr. split.
    - destruct (zfind v tab) as [[n' z]|] eqn:E; [|discriminate]. cbn. intros H. injection H as <-.
      apply zfind_In in E; [|apply (read_symbols_sorted funcs)]. apply tab_In in E. exists (n', v, z). auto.
    - intros ([[n' a] z] & I & <- & <-). cbn [f_lo f_name fst snd]. apply tab_In in I.
      apply zfind_In in I; [|apply (read_symbols_sorted funcs)]. rewrite I. reflexivity.
  Qed.

  Lemma tab_perm : Permutation tab (map (fun f => (f_lo f, (f_name f, snd f))) funcs).
  Proof.
    apply NoDup_Permutation.
    - pose proof (read_symbols_sorted funcs) as S. change (read_symbols funcs) with (BuildSymbolMap funcs) in S.
      clear -S. induction S as [|k v m L S IH]; constructor; auto. intros I. apply L in I. lia.
    - destruct FOK as (_ & N2 & _). apply (NoDup_map_inv fst). rewrite map_map. exact N2.
    - intros [a [n z]]. rewrite tab_In, in_map_iff. split.
      + intros I. exists (n, a, z). auto.
      + intros ([[n' a'] z'] & E & I). cbn in E. injection E as <- <- <-. auto.
  Qed.
  Lemma tab_names : NoDup (map (fun e => fst (snd e)) tab).
  Proof.
    eapply Permutation_NoDup; [apply Permutation_sym, Permutation_map, tab_perm|]. rewrite map_map. apply FOK.
  Qed.

  (** *** aggregation *)
  Definition Inv (D : name * Z * Z -> pmaps) (ps : profs) : Prop :=
    NoDup (akeys ps) /\ (forall n, In n (akeys ps) -> In n (map f_name funcs)) /\
    forall f, In f funcs -> aget name_eqb (f_name f) ps = Some (D f) \/
      (aget name_eqb (f_name f) ps = None /\ D f = new_pmaps (f_lo f) (f_hi f)).

  Lemma Inv_ext D D' ps : (forall f, In f funcs -> D f = D' f) -> Inv D ps -> Inv D' ps.
  Proof.
    intros E (N & K & H). split; [exact N|]. split; [exact K|]. intros f I. rewrite <- (E f I). apply H; auto.
  Qed.
  Lemma akeys_In (n : name) (ps : profs) : In n (akeys ps) <-> aget name_eqb n ps <> None.
  Proof.
    pose proof (aget_None_iff name_eqb name_eqb_spec n ps) as H. split.
    - intros I E. apply H in E. contradiction.
    - intros E. destruct (in_dec (list_eq_dec Z.eq_dec) n (akeys ps)); auto. exfalso. apply E, H; auto.
  Qed.
  Lemma Inv_step D ps v upd : Inv D ps ->
    Inv (fun f => if in_func f v then upd (D f) else D f) (with_profile_maps tab v upd ps).
  Proof.
    intros (N & K & H). unfold with_profile_maps. destruct (GetSymbolInfoByAddr tab v) as [[[n lo] hi]|] eqn:G.
    - apply info_Some in G. destruct G as (f & If & Vf & <- & <- & <-).
      split; [|split].
      + apply (NoDup_akeys_aset name_eqb name_eqb_spec); auto.
      + intros x I. apply akeys_In in I. rewrite (aget_aset name_eqb name_eqb_spec) in I.
        destruct (name_eqb_spec x (f_name f)); [subst; apply in_map; auto|]. apply K, akeys_In; auto.
      + intros g Ig. rewrite (aget_aset name_eqb name_eqb_spec).
        destruct (name_eqb_spec (f_name g) (f_name f)) as [E|NE].
        * assert (g = f) by (apply name_inj; auto). subst g. rewrite Vf. left. f_equal. f_equal.
          destruct (H f If) as [->|[-> ->]]; reflexivity.
        * destruct (in_func g v) eqn:Vg; [|apply H; auto].
          exfalso. apply NE. f_equal. eapply in_func_unique; eauto.
    - split; [exact N|]. split; [exact K|]. intros f If. rewrite (info_None v G f If). apply H; auto.
  Qed.
End Table.

Section Agg.
  Variable funcs : list (name * Z * Z).
  Hypothesis FOK : funcs_ok funcs.
  Notation tab := (st_map (BuildSymbolMap funcs)).
  Variable segs : list seg.
  Hypothesis LO : laid_out segs.
  Hypothesis AL : Forall aligned segs.
  Notation sp := (map seg_pair segs).

  Lemma vaddr_ok a : in_segments segs a ->
    get_static_vaddr sp a = Ok (address_of segs a) /\ 0 <= address_of segs a < 2 ^ 64.
  Proof.
    intros (g & I & R). unfold address_of.
    destruct (find (fun g => (sg_off g <=? a) && (a <? sg_off g + sg_size g)) segs) as [h|] eqn:F.
    - apply find_some in F. destruct F as [Ih Rh]. apply andb_prop in Rh.
      pose proof (laid_out_In _ _ LO Ih) as B. rewrite Forall_forall in AL. split; [|lia].
      destruct (C16_offset_vaddr_inverse segs h (a - sg_off h) LO Ih (AL _ Ih) ltac:(lia)) as [E _].
      replace (sg_off h + (a - sg_off h)) with a in E by lia. exact E.
    - exfalso. apply find_none with (x := g) in F; auto. lia.
  Qed.

  Definition sel1 (f : name * Z * Z) (l : list (Z * Z)) : list (Z * Z) :=
    filter (fun e => in_func f (fst e)) (map (fun e => (address_of segs (fst e), snd e)) l).
  Definition sel2 (f : name * Z * Z) (l : list ((Z * Z) * Z)) : list ((Z * Z) * Z) :=
    filter (fun e => in_func f (fst (fst e)))
      (map (fun e => ((address_of segs (fst (fst e)), address_of segs (snd (fst e))), snd e)) l).

  Definition putA (p : pmaps) (l : list (Z * Z)) : pmaps :=
    {| pm_start := pm_start p; pm_end := pm_end p; pm_ts := pm_ts p;
       pm_addr := madd_all Z.eqb l (pm_addr p); pm_range := pm_range p; pm_branch := pm_branch p |}.
  Definition putR (p : pmaps) (l : list ((Z * Z) * Z)) : pmaps :=
    {| pm_start := pm_start p; pm_end := pm_end p; pm_ts := pm_ts p;
       pm_addr := pm_addr p; pm_range := madd_all pair_eqb l (pm_range p); pm_branch := pm_branch p |}.
  Definition putB (p : pmaps) (l : list ((Z * Z) * Z)) : pmaps :=
    {| pm_start := pm_start p; pm_end := pm_end p; pm_ts := pm_ts p;
       pm_addr := pm_addr p; pm_range := pm_range p; pm_branch := madd_all pair_eqb l (pm_branch p) |}.
  Lemma putA_nil p : putA p [] = p. Proof. destruct p; reflexivity. Qed.
  Lemma putR_nil p : putR p [] = p. Proof. destruct p; reflexivity. Qed.
  Lemma putB_nil p : putB p [] = p. Proof. destruct p; reflexivity. Qed.

  Lemma agg_addr_inv l : (forall e, In e l -> in_segments segs (fst e)) -> forall D ps, Inv funcs D ps ->
    exists ps', agg_addr tab sp l ps = Ok ps' /\ Inv funcs (fun f => putA (D f) (sel1 f l)) ps'.
  Proof.
    induction l as [|[a c] l IH]; intros S D ps I.
    - exists ps. split; [reflexivity|]. eapply Inv_ext; [|exact I]. intros f _. symmetry. apply putA_nil.
    - cbn [agg_addr]. destruct (vaddr_ok a) as [-> _]; [apply (S (a, c)); left; auto|]. cbn [obind].
      destruct (IH ltac:(intros; apply S; right; auto) _ _ (Inv_step funcs FOK D ps (address_of segs a)
        (fun m => {| pm_start := pm_start m; pm_end := pm_end m; pm_ts := pm_ts m;
             pm_addr := madd Z.eqb (pm_addr m) (address_of segs a, c); pm_range := pm_range m;
             pm_branch := pm_branch m |}) I)) as (ps' & E & I').
      exists ps'. split; [exact E|]. eapply Inv_ext; [|exact I']. intros f _. cbn beta.
      unfold sel1 at 2. cbn [map filter fst snd]. fold (sel1 f l). destruct (in_func f (address_of segs a)); reflexivity.
  Qed.
  Lemma agg_range_inv l : (forall e, In e l -> in_segments segs (fst (fst e)) /\ in_segments segs (snd (fst e))) ->
    forall D ps, Inv funcs D ps ->
    exists ps', agg_range tab sp l ps = Ok ps' /\ Inv funcs (fun f => putR (D f) (sel2 f l)) ps'.
  Proof.
    induction l as [|[[a b] c] l IH]; intros S D ps I.
    - exists ps. split; [reflexivity|]. eapply Inv_ext; [|exact I]. intros f _. symmetry. apply putR_nil.
    - cbn [agg_range]. destruct (S ((a, b), c) (or_introl eq_refl)) as [Sa Sb]. cbn [fst snd] in Sa, Sb.
      destruct (vaddr_ok a Sa) as [-> _]. destruct (vaddr_ok b Sb) as [-> _]. cbn [obind].
      destruct (IH ltac:(intros; apply S; right; auto) _ _ (Inv_step funcs FOK D ps (address_of segs a)
        (fun m => {| pm_start := pm_start m; pm_end := pm_end m; pm_ts := pm_ts m;
             pm_addr := pm_addr m; pm_range := madd pair_eqb (pm_range m) ((address_of segs a, address_of segs b), c);
             pm_branch := pm_branch m |}) I)) as (ps' & E & I').
      exists ps'. split; [exact E|]. eapply Inv_ext; [|exact I']. intros f _. cbn beta.
      unfold sel2 at 2. cbn [map filter fst snd]. fold (sel2 f l). destruct (in_func f (address_of segs a)); reflexivity.
  Qed.
  Lemma agg_branch_inv l : (forall e, In e l -> in_segments segs (fst (fst e)) /\ in_segments segs (snd (fst e))) ->
    forall D ps, Inv funcs D ps ->
    exists ps', agg_branch tab sp l ps = Ok ps' /\ Inv funcs (fun f => putB (D f) (sel2 f l)) ps'.
  Proof.
    induction l as [|[[a b] c] l IH]; intros S D ps I.
    - exists ps. split; [reflexivity|]. eapply Inv_ext; [|exact I]. intros f _. symmetry. apply putB_nil.
    - cbn [agg_branch]. destruct (S ((a, b), c) (or_introl eq_refl)) as [Sa Sb]. cbn [fst snd] in Sa, Sb.
      destruct (vaddr_ok a Sa) as [-> _]. destruct (vaddr_ok b Sb) as [-> _]. cbn [obind].
      destruct (IH ltac:(intros; apply S; right; auto) _ _ (Inv_step funcs FOK D ps (address_of segs a)
        (fun m => {| pm_start := pm_start m; pm_end := pm_end m; pm_ts := pm_ts m;
             pm_addr := pm_addr m; pm_range := pm_range m;
             pm_branch := madd pair_eqb (pm_branch m) ((address_of segs a, address_of segs b), c) |}) I)) as (ps' & E & I').
      exists ps'. split; [exact E|]. eapply Inv_ext; [|exact I']. intros f _. cbn beta.
      unfold sel2 at 2. cbn [map filter fst snd]. fold (sel2 f l). destruct (in_func f (address_of segs a)); reflexivity.
  Qed.

  (** every symbol gets an entry *)
  Lemma agg_names_inv l : (forall n a, In (n, a) l -> exists f, In f funcs /\ f_lo f = a) ->
    forall D ps, Inv funcs D ps ->
    exists ps', agg_names tab l ps = Ok ps' /\ Inv funcs D ps' /\
      (forall n, In n (akeys ps) -> In n (akeys ps')) /\
      forall n a f, In (n, a) l -> In f funcs -> f_lo f = a -> In (f_name f) (akeys ps').
  Proof.
    induction l as [|[x a] l IH]; intros S D ps I.
    - exists ps. split; [reflexivity|]. split; [exact I|]. split; auto. intros ? ? ? [].
    - cbn [agg_names]. destruct (S x a (or_introl eq_refl)) as (f & If & La).
      assert (V : in_func f a = true).
      { destruct FOK as (_ & _ & B & _). destruct (B f If) as (? & ? & ?). unfold in_func, f_hi, f_lo in *.
        apply andb_true_intro. lia. }
      assert (G : GetSymbolInfoByAddr tab a = Some (f_name f, f_lo f, f_hi f)) by (apply (info_Some funcs FOK); exists f; repeat (split; auto)).
      rewrite G.
      assert (I1 : Inv funcs D (with_profile_maps tab a (fun m => m) ps)).
      { eapply Inv_ext; [|exact (Inv_step funcs FOK D ps a (fun m => m) I)]. intros g _. cbn beta. destruct (in_func g a); reflexivity. }
      destruct (IH ltac:(intros; eapply S; right; eauto) _ _ I1) as (ps' & E & I' & K1 & K2).
      exists ps'. split; [exact E|]. split; [exact I'|].
      assert (KK : forall n, In n (akeys (with_profile_maps tab a (fun m => m) ps)) <-> n = f_name f \/ In n (akeys ps)).
      { intros n. rewrite !akeys_In. unfold with_profile_maps. rewrite G. rewrite (aget_aset name_eqb name_eqb_spec).
        destruct (name_eqb_spec n (f_name f)); split; intros H; auto; try discriminate. destruct H; [contradiction|auto]. }
      split.
      + intros n In_. apply K1, KK. auto.
      + intros n b g [Eq|Il] Ig Lg; [|eapply K2; eauto]. injection Eq as <- <-.
        apply K1, KK. left. f_equal. eapply (in_func_unique funcs FOK _ _ a); auto.
        destruct FOK as (_ & _ & B & _). destruct (B g Ig) as (? & ? & ?). unfold in_func, f_hi, f_lo in *. apply andb_true_intro. lia.
  Qed.

  Lemma name_addr_In : forall n a, In (n, a) (UpdateNameAddrMap tab) <-> exists z, In (a, (n, z)) tab.
  Proof.
    pose proof (tab_names funcs FOK) as N. unfold UpdateNameAddrMap. revert N.
    assert (G : forall (m : list (Z * (name * Z))) (acc : list (name * Z)), NoDup (akeys acc ++ map (fun e => fst (snd e)) m) ->
      forall n a, In (n, a) (fold_left (fun acc '(a, (n, _)) => aset name_eqb n a acc) m acc) <->
         In (n, a) acc \/ exists z, In (a, (n, z)) m).
    { induction m as [|[a0 [n0 z0]] m IH]; intros acc N n a; cbn [fold_left].
      - split; [auto|]. intros [H|(z & [])]. auto.
      - cbn [map fst snd] in N.
        assert (FR : ~ In n0 (akeys acc)).
        { intros I. apply NoDup_remove_2 in N. apply N. apply in_or_app. auto. }
        assert (AS : aset name_eqb n0 a0 acc = acc ++ [(n0, a0)]).
        { clear -FR. induction acc as [|[k v] acc IH]; cbn [aset app]; auto. cbn [akeys map In fst] in FR.
          destruct (name_eqb_spec n0 k); [subst; tauto|]. rewrite IH by tauto. reflexivity. }
        rewrite AS, IH.
        + rewrite in_app_iff. cbn [In]. split.
          * intros [[H|[H|[]]]|(z & H)]; [auto| |right; exists z; right; auto]. injection H as -> ->. right. exists z0. left; auto.
          * intros [H|(z & [H|H])]; [auto| |right; exists z; auto]. injection H as -> -> ->. auto.
        + unfold akeys. rewrite map_app. cbn [map fst]. rewrite <- app_assoc. exact N. }
    intros N n a. rewrite G; [|exact N]. cbn [In]. split; [intros [[]|H]; auto|auto].
  Qed.

  Definition desc (s : samples) (f : name * Z * Z) : pmaps :=
    {| pm_start := f_lo f; pm_end := f_hi f; pm_ts := 0;
       pm_addr := madd_all Z.eqb (sel1 f (sa_addr s)) [];
       pm_range := madd_all pair_eqb (sel2 f (sa_range s)) [];
       pm_branch := madd_all pair_eqb (sel2 f (sa_branch s)) [] |}.

  Lemma aggregate_ok s : samples_in_segments segs s ->
    exists ps, AggregatePerFunctionProfile tab sp s [] (UpdateNameAddrMap tab) [] = Ok ps /\
      NoDup (akeys ps) /\ Permutation ps (map (fun f => (f_name f, desc s f)) funcs).
  Proof.
    intros (SR & SA & SB). unfold AggregatePerFunctionProfile.
    assert (I0 : Inv funcs (fun f => new_pmaps (f_lo f) (f_hi f)) []).
    { split; [constructor|]. split; [intros ? []|]. intros f _. right. auto. }
    destruct (agg_addr_inv (sa_addr s) SA _ _ I0) as (p1 & -> & I1). cbn [obind agg_ts].
    destruct (agg_range_inv (sa_range s) SR _ _ I1) as (p2 & -> & I2). cbn [obind].
    destruct (agg_branch_inv (sa_branch s) SB _ _ I2) as (p3 & -> & I3). cbn [obind].
    destruct (agg_names_inv (UpdateNameAddrMap tab)) with (D := desc s) (ps := p3) as (p4 & E4 & I4 & _ & K4).
    { intros n a I. apply name_addr_In in I. destruct I as (z & I). apply tab_In in I; auto. exists (n, a, z). auto. }
    { eapply Inv_ext; [|exact I3]. intros f _. reflexivity. }
    exists p4. split; [exact E4|]. destruct I4 as (N & K & H). split; [exact N|].
    apply NoDup_Permutation.
    - apply (NoDup_map_inv fst). exact N.
    - apply (NoDup_map_inv fst). rewrite map_map. apply FOK.
    - intros [n p]. rewrite in_map_iff. split.
      + intros I. assert (In n (map f_name funcs)).
        { apply K. apply in_map_iff. exists (n, p). auto. }
        apply in_map_iff in H0. destruct H0 as (f & <- & If). exists f. split; auto. f_equal.
        pose proof (aget_NoDup_In name_eqb name_eqb_spec _ _ _ N I) as A.
        destruct (H f If) as [X|[X _]]; congruence.
      + intros (f & E & If). injection E as <- <-.
        assert (J : In (f_name f) (akeys p4)).
        { apply (K4 (f_name f) (f_lo f) f); auto. apply name_addr_In. exists (snd f). apply tab_In; auto.
          destruct f as [[? ?] ?]. exact If. }
        apply akeys_In in J. destruct (H f If) as [X|[X _]]; [|congruence].
        apply (aget_In name_eqb name_eqb_spec). exact X.
  Qed.
End Agg.

(** *** what the collected maps add up to *)
Section Desc.
  Variable segs : list seg.
  Hypothesis LO : laid_out segs.
  Hypothesis AL : Forall aligned segs.
  Variable funcs : list (name * Z * Z).
  Hypothesis FOK : funcs_ok funcs.
  Variable s : samples.
  Hypothesis SOK : samples_ok s.
  Hypothesis SS : samples_in_segments segs s.

  Lemma mod_u64 x : u64 x = x mod 2 ^ 64. Proof. reflexivity. Qed.
  Lemma wsum_wtot {K} (P : K -> bool) l : wsum P l = wtot (fun k => if P k then 1 else 0) l.
  Proof.
    unfold wsum, wtot. induction l as [|e l IH]; cbn [fold_right]; auto. rewrite IH. destruct (P (fst e)); lia.
  Qed.
  Lemma wsum_all {K} (eqb : K -> K -> bool) (sp : forall a b, reflect (a = b) (eqb a b)) P l :
    wsum P (madd_all eqb l []) mod 2 ^ 64 = wsum P l mod 2 ^ 64.
  Proof.
    rewrite !wsum_wtot. pose proof (wtot_madd_all eqb (fun k => if P k then 1 else 0) sp l []) as H.
    rewrite !mod_u64 in H. rewrite H. f_equal.
  Qed.

  Lemma sel2_ok f l : In f funcs ->
    Forall (fun e => u64_range (fst (fst e)) /\ u64_range (snd (fst e)) /\ u64_range (snd e)) l ->
    (forall e, In e l -> in_segments segs (fst (fst e)) /\ in_segments segs (snd (fst e))) ->
    Forall (fun e : (Z * Z) * Z => (in_func f (fst (fst e)) = true /\ u64_range (fst (fst e)) /\ u64_range (snd (fst e))) /\ u64_range (snd e)) (sel2 segs f l).
  Proof.
    intros If F S. apply Forall_forall. intros e I. apply filter_In in I. destruct I as [I V].
    apply in_map_iff in I. destruct I as ([[a b] c] & <- & I). cbn [fst snd] in *.
    rewrite Forall_forall in F. destruct (F _ I) as (_ & _ & C). cbn [snd] in C.
    destruct (S _ I) as [Sa Sb]. cbn [fst snd] in Sa, Sb.
    destruct (vaddr_ok segs LO AL a Sa) as [_ A]. destruct (vaddr_ok segs LO AL b Sb) as [_ B].
    unfold u64_range. auto.
  Qed.
  Lemma sel1_ok f l : In f funcs ->
    Forall (fun e => u64_range (fst e) /\ u64_range (snd e)) l ->
    (forall e, In e l -> in_segments segs (fst e)) ->
    Forall (fun e : Z * Z => (in_func f (fst e) = true /\ u64_range (fst e)) /\ u64_range (snd e)) (sel1 segs f l).
  Proof.
    intros If F S. apply Forall_forall. intros e I. apply filter_In in I. destruct I as [I V].
    apply in_map_iff in I. destruct I as ([a c] & <- & I). cbn [fst snd] in *.
    rewrite Forall_forall in F. destruct (F _ I) as (_ & C). cbn [snd] in C.
    destruct (vaddr_ok segs LO AL a (S _ I)) as [_ A]. unfold u64_range. auto.
  Qed.

  Lemma desc_ranges f : In f funcs -> NoDup (akeys (pm_range (desc segs s f))) /\
    Forall (fun e => (in_func f (fst (fst e)) = true /\ u64_range (fst (fst e)) /\ u64_range (snd (fst e))) /\ u64_range (snd e)) (pm_range (desc segs s f)).
  Proof.
    intros If. destruct SOK as (_ & _ & _ & F1 & _ & _). destruct SS as (S1 & _ & _). cbn [desc pm_range].
    apply (madd_all_ok pair_eqb pair_eqb_spec (fun k => in_func f (fst k) = true /\ u64_range (fst k) /\ u64_range (snd k)));
      [constructor|constructor|apply sel2_ok; auto].
  Qed.
  Lemma desc_branches f : In f funcs -> NoDup (akeys (pm_branch (desc segs s f))) /\
    Forall (fun e => (in_func f (fst (fst e)) = true /\ u64_range (fst (fst e)) /\ u64_range (snd (fst e))) /\ u64_range (snd e)) (pm_branch (desc segs s f)).
  Proof.
    intros If. destruct SOK as (_ & _ & _ & _ & _ & F3). destruct SS as (_ & _ & S3). cbn [desc pm_branch].
    apply (madd_all_ok pair_eqb pair_eqb_spec (fun k => in_func f (fst k) = true /\ u64_range (fst k) /\ u64_range (snd k)));
      [constructor|constructor|apply sel2_ok; auto].
  Qed.
  Lemma desc_addrs f : In f funcs -> NoDup (akeys (pm_addr (desc segs s f))) /\
    Forall (fun e => (in_func f (fst e) = true /\ u64_range (fst e)) /\ u64_range (snd e)) (pm_addr (desc segs s f)).
  Proof.
    intros If. destruct SOK as (_ & _ & _ & _ & F2 & _). destruct SS as (_ & S2 & _). cbn [desc pm_addr].
    apply (madd_all_ok Z.eqb Z_eqb_reflect (fun k => in_func f k = true /\ u64_range k));
      [constructor|constructor|apply sel1_ok; auto].
  Qed.

  Lemma desc_ok f : In f funcs -> pmaps_ok (desc segs s f).
  Proof.
    intros If. destruct (desc_ranges f If) as [_ R]. destruct (desc_branches f If) as [_ B]. destruct (desc_addrs f If) as [N A].
    destruct FOK as (_ & _ & O & _). destruct (O f If) as (O1 & O2 & O3).
    unfold pmaps_ok. split; [exact O1|]. split; [exact O3|]. split; [exact N|].
    split; [|split; [|split]].
    - eapply Forall_impl; [|exact A]. intros e H. apply H.
    - eapply Forall_impl; [|exact A]. intros e H. apply H.
    - eapply Forall_impl; [|exact R]. intros e H. apply H.
    - eapply Forall_impl; [|exact B]. intros e H. cbv beta in *. unfold u64_range, is_u64 in *. tauto.
  Qed.

  Lemma desc_addresses f : fn_addresses (desc segs s f) = func_addrs f.
  Proof. unfold fn_addresses, func_addrs. cbn [desc pm_start pm_end]. do 3 f_equal. unfold f_hi, f_lo. lia. Qed.

  Lemma func_ranges_sel f : func_ranges segs s f = sel2 segs f (sa_range s). Proof. reflexivity. Qed.
  Lemma func_hits_sel f : func_hits segs s f = sel1 segs f (sa_addr s). Proof. reflexivity. Qed.

  Lemma desc_exec use_lbr f a : In f funcs ->
    exec_count use_lbr (desc segs s f) a = executed segs use_lbr s f a mod 2 ^ 64.
  Proof.
    intros If. unfold exec_count, executed. destruct use_lbr.
    - assert (E : covering (pm_start (desc segs s f)) (pm_range (desc segs s f)) a
        = wsum (fun k => (fst k <=? a) && (a <=? snd k)) (pm_range (desc segs s f))).
      { destruct (desc_ranges f If) as [_ R]. revert R. generalize (pm_range (desc segs s f)). cbn [desc pm_start]. clear.
        induction l as [|e l IH]; intros R; [reflexivity|]. inversion R as [|? ? H R']; subst. cbn [covering wsum fold_right].
        fold (covering (f_lo f) l a). fold (wsum (fun k : Z * Z => (fst k <=? a) && (a <=? snd k)) l).
        rewrite (IH R'). destruct H as [[H _] _]. unfold in_func in H. apply andb_prop in H. destruct H as [H _].
        rewrite H. reflexivity. }
      rewrite E. cbn [desc pm_range]. rewrite (wsum_all pair_eqb pair_eqb_spec). reflexivity.
    - unfold addr_samples. cbn [desc pm_addr].
      pose proof (cnt_madd_all_small Z.eqb Z_eqb_reflect (sel1 segs f (sa_addr s)) [] a ltac:(intros k; change (0 <= 0 < 2 ^ 64); lia)) as C.
      unfold cnt in C. cbn [aget] in C. rewrite C. rewrite mod_u64. f_equal. rewrite func_hits_sel, Z.add_0_l.
      unfold sum_at, sum_of. clear C. induction (sel1 segs f (sa_addr s)) as [|e l IH]; [reflexivity|]. cbn [fold_right]. rewrite IH.
      rewrite (Z.eqb_sym a). reflexivity.
  Qed.

  Lemma desc_weight stack_of dup use_lbr f a : In f funcs ->
    weight stack_of dup use_lbr (desc segs s f) a = scaled segs stack_of dup use_lbr s f a.
  Proof. intros If. unfold weight, scaled. destruct (stack_of a); auto. rewrite desc_exec by auto. reflexivity. Qed.

  Lemma desc_samples f : part_samples (desc segs s f) mod 2 ^ 64 = func_samples segs s f mod 2 ^ 64.
  Proof.
    unfold part_samples, func_samples. cbn [desc pm_range pm_addr]. rewrite func_ranges_sel, func_hits_sel.
    destruct (madd_all pair_eqb (sel2 segs f (sa_range s)) []) as [|e l] eqn:M.
    - apply (madd_all_nil_iff pair_eqb pair_eqb_spec) in M. destruct M as [-> _].
      pose proof (wtot_madd_all Z.eqb (fun _ => 1) Z_eqb_reflect (sel1 segs f (sa_addr s)) []) as H.
      assert (Q : forall m : list (Z * Z), wtot (fun _ => 1) m = fold_right (fun e a => snd e + a) 0 m).
      { intros m. unfold wtot. induction m; cbn [fold_right]; auto. rewrite IHm. lia. }
      rewrite !Q in H. exact H.
    - destruct (sel2 segs f (sa_range s)) as [|e0 l0] eqn:E; [discriminate|]. rewrite <- M, <- E.
      exact (wtot_madd_all pair_eqb (fun k => snd k - fst k + 1) pair_eqb_spec (sel2 segs f (sa_range s)) []).
  Qed.

  Lemma desc_idle use_lbr f :
    (use_lbr && match pm_range (desc segs s f) with [] => true | _ => false end)
    = (use_lbr && match func_ranges segs s f with [] => true | _ => false end).
  Proof.
    cbn [desc pm_range]. rewrite func_ranges_sel. f_equal.
    destruct (madd_all pair_eqb (sel2 segs f (sa_range s)) []) as [|e l] eqn:M.
    - apply (madd_all_nil_iff pair_eqb pair_eqb_spec) in M. destruct M as [-> _]. reflexivity.
    - destruct (sel2 segs f (sa_range s)); [discriminate|reflexivity].
  Qed.
End Desc.
