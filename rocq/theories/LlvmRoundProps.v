(** C58: what an LLVM profile preserves. *)
From Verif Require Import Base ByteModel AssocFold SymbolModel SymbolSpec SymbolProofs AfdoModel AfdoProofs SrcOffsetModel SrcOffsetProofs FlattenPureProofs FlattenMapProofs HybridSpec LlvmReadModel LlvmReadSpec LlvmReadProps LlvmWriteModel LlvmWriteSpec LlvmWriteProofs LlvmWriteRep LlvmWriteProps LlvmRoundProofs.

Lemma nd_flat {K V W} (eqb : K -> K -> bool) (sp : forall a b, reflect (a = b) (eqb a b)) (b : K -> bool) (h : V -> list W) k m :
  NoDup (akeys m) -> (forall k' v, In (k', v) m -> b k' = eqb k k') ->
  flat_map (fun kc => if b (fst kc) then h (snd kc) else []) m = match aget eqb k m with Some v => h v | None => [] end.
Proof.
  induction m as [|[k0 v0] m IH]; intros ND H; cbn [flat_map aget fst snd]; [reflexivity|]. inversion ND as [|? ? NI ND']; subst. rewrite (H k0 v0 (or_introl eq_refl)).
  specialize (IH ND' (fun k' v Hv => H k' v (or_intror Hv))). destruct (sp k k0) as [->|N].
  - rewrite IH. replace (aget eqb k0 m) with (@None V); [apply app_nil_r|]. symmetry. apply (aget_None_iff eqb sp). exact NI.
  - exact IH.
Qed.
Lemma llvm_loc_eqb a b : 0 <= a < 2 ^ 48 -> 0 <= b < 2 ^ 48 -> lloc_eqb (llvm_loc a) (llvm_loc b) = (b =? a).
Proof.
  intros HA HB. destruct (lloc_eqb_spec (llvm_loc a) (llvm_loc b)) as [E|N]; symmetry; [apply Z.eqb_eq|apply Z.eqb_neq].
  - rewrite <- (llvm_loc_of a HA), <- (llvm_loc_of b HB), E. reflexivity.
  - congruence.
Qed.
Lemma llvm_key_eqb (a b : callsite) : 0 <= fst a < 2 ^ 48 -> 0 <= fst b < 2 ^ 48 -> lkey_eqb (llvm_key a) (llvm_key b) = callsite_eqb b a.
Proof.
  intros HA HB. unfold lkey_eqb, llvm_key, callsite_eqb. cbn [fst snd]. rewrite llvm_loc_eqb by assumption. f_equal. destruct (name_eqb_spec (snd a) (snd b)), (name_eqb_spec (snd b) (snd a)); congruence.
Qed.
Lemma narrow_parts s : narrow s -> Forall (fun e => 0 <= fst e < 2 ^ 48) (s_pos s) /\ forall k c, In (k, c) (s_calls s) -> 0 <= fst k < 2 ^ 48 /\ narrow c.
Proof.
  destruct s as [h t ts pos cs]. cbn [narrow s_pos s_calls]. intros (P & C). split; [exact P|]. clear P. induction cs as [|[k0 c0] cs IH]; intros k c H; [destruct H|]. cbn [fold_right fst snd] in C. destruct C as (C1 & C2 & C3). destruct H as [E|H]; [|exact (IH C3 k c H)]. assert (k0 = k) by congruence. assert (c0 = c) by congruence. subst. split; assumption.
Qed.
Lemma nodes_at_narrow q : forall s, sym_ok s -> narrow s -> narrow_path q ->
  nodes_at (map llvm_key q) s = match node_at s q with Some x => [x] | None => [] end.
Proof.
  induction q as [|k q IH]; intros s OS NS NQ; cbn [map nodes_at node_at]; [reflexivity|]. inversion NQ as [|? ? NK NQ']; subst. destruct (narrow_parts s NS) as (_ & NC).
  rewrite (nd_flat callsite_eqb callsite_eqb_spec (fun k' => lkey_eqb (llvm_key k') (llvm_key k)) (nodes_at (map llvm_key q)) k).
  - destruct (aget callsite_eqb k (s_calls s)) as [c|] eqn:E; [|reflexivity]. pose proof (aget_In callsite_eqb callsite_eqb_spec _ _ _ E) as HI. apply IH; [exact (sym_ok_calls _ OS _ _ HI)|exact (proj2 (NC _ _ HI))|exact NQ'].
  - inversion OS; subst; assumption.
  - intros k' v HI. apply llvm_key_eqb; [exact (proj1 (NC _ _ HI))|exact NK].
Qed.
Lemma node_ok q : forall s x, sym_ok s -> narrow s -> node_at s q = Some x -> sym_ok x /\ narrow x /\ narrow_path q.
Proof.
  induction q as [|k q IH]; intros s x OS NS E; cbn [node_at] in E; [injection E as <-; repeat split; try assumption; constructor|]. destruct (aget callsite_eqb k (s_calls s)) as [c|] eqn:A; [|discriminate]. pose proof (aget_In callsite_eqb callsite_eqb_spec _ _ _ A) as HI. destruct (proj2 (narrow_parts s NS) _ _ HI) as (NK & NC).
  destruct (IH c x (sym_ok_calls _ OS _ _ HI) NC E) as (X1 & X2 & X3). split; [exact X1|]. split; [exact X2|]. constructor; assumption.
Qed.
Lemma map_filter_flat {A B} (g : A -> B) (p : A -> bool) l : map g (filter p l) = flat_map (fun x => if p x then [g x] else []) l.
Proof. induction l as [|x l IH]; cbn [filter flat_map]; [reflexivity|]. destruct (p x); cbn [map app]; rewrite IH; reflexivity. Qed.
Lemma lines_at_narrow l x : sym_ok x -> narrow x -> 0 <= l < 2 ^ 48 -> lines_at (llvm_loc l) [x] = match aget Z.eqb l (s_pos x) with Some i => [i] | None => [] end.
Proof.
  intros OX NX NL. unfold lines_at. cbn [flat_map]. rewrite app_nil_r, map_filter_flat. rewrite (nd_flat Z.eqb Z.eqb_spec (fun o => lloc_eqb (llvm_loc o) (llvm_loc l)) (fun i => [i]) l); [reflexivity| |].
  - inversion OX as [? ? ? ? ? ? ? P]; subst. apply P.
  - intros o i HI. destruct (narrow_parts x NX) as (NP & _). rewrite Forall_forall in NP. apply llvm_loc_eqb; [exact (NP _ HI)|exact NL].
Qed.
Lemma targets_of_one t i : pinfo_ok i -> targets_of t [i] = match aget name_eqb t (p_targets i) with Some v => [v] | None => [] end.
Proof.
  intros (_ & _ & ND & _). unfold targets_of. cbn [flat_map]. rewrite app_nil_r, map_filter_flat. rewrite (nd_flat name_eqb name_eqb_spec (fun g => name_eqb g t) (fun i => [i]) t); [reflexivity|exact ND|]. intros k v _. destruct (name_eqb_spec k t), (name_eqb_spec t k); congruence.
Qed.

(** With lines below 65536 the LLVM profile of a function is the function: the
    same nodes, the same records, the same call targets, the same numbers. *)
Theorem C58_one_to_one : forall n s f, sym_ok s -> narrow s -> llvm_of n s f ->
  forall q l t, Forall (fun k => 0 <= fst k < 2 ^ 48) q -> 0 <= l < 2 ^ 48 ->
  match lnode f (map llvm_key q) with
  | None => has_node s q = false
  | Some x => has_node s q = true /\ lf_total x = total_at s q /\
      match lrecord x (llvm_loc l) with
      | None => has_pos s q l = false
      | Some r => has_pos s q l = true /\ fst r = count_at s q l /\
          match ltarget r t with
          | None => has_target s q l t = false
          | Some v => has_target s q l t = true /\ v = target_at s q l t
          end
      end
  end.
Proof.
  intros n s f OS NS (_ & _ & LO) q l t NQ NL. specialize (LO (map llvm_key q)). cbv zeta in LO. rewrite (nodes_at_narrow q s OS NS NQ) in LO. unfold has_node, total_at, has_pos, count_at, has_target, target_at, pos_at. destruct (node_at s q) as [x|] eqn:NA.
  - destruct (node_ok q s x OS NS NA) as (OX & NX & _). destruct (lnode f (map llvm_key q)) as [y|]; [|discriminate]. destruct LO as (_ & TE & _ & LR). split; [reflexivity|]. split; [cbn [sumz] in TE; lia|]. specialize (LR (llvm_loc l)). rewrite (lines_at_narrow l x OX NX NL) in LR. destruct (aget Z.eqb l (s_pos x)) as [i|] eqn:AP.
    + destruct (lrecord y (llvm_loc l)) as [r|]; [|discriminate]. destruct LR as (_ & CE & TT). split; [reflexivity|]. split; [unfold count_sum in CE; cbn [sumz] in CE; lia|].
      assert (OI : pinfo_ok i) by (inversion OX as [? ? ? ? ? ? ? P]; subst; destruct P as [_ P]; rewrite Forall_forall in P; apply (aget_In Z.eqb Z.eqb_spec) in AP; exact (P _ AP)).
      specialize (TT t). unfold target_sum in TT. rewrite (targets_of_one t i OI) in TT. unfold tget. destruct (aget name_eqb t (p_targets i)) as [v|]; destruct (ltarget r t) as [w|]; try discriminate.
      * destruct TT as (_ & TT). cbn [sumz] in TT. split; [reflexivity|lia].
      * destruct TT as (TT & _). congruence.
      * reflexivity.
    + destruct (lrecord y (llvm_loc l)) as [r|]; [|reflexivity]. destruct LR as (LR & _). congruence.
  - destruct (lnode f (map llvm_key q)) as [y|]; [destruct LO as (LO & _); congruence|reflexivity].
Qed.

(** *** No sum to overflow *)
Lemma path_back q : forall s, sym_ok s -> nodes_at q s = [] \/ exists p, narrow_path p /\ q = map llvm_key p.
Proof.
  induction q as [|[ld g] q IH]; intros s OS; [right; exists []; split; [constructor|reflexivity]|]. cbn [nodes_at].
  destruct (flat_map (fun kc => if lkey_eqb (llvm_key (fst kc)) (ld, g) then nodes_at q (snd kc) else []) (s_calls s)) as [|y ys] eqn:E; [left; reflexivity|right].
  assert (HY : In y (y :: ys)) by (left; reflexivity). rewrite <- E in HY. apply in_flat_map in HY. destruct HY as ([[o g'] c] & HI & HY). cbn [fst snd] in HY. destruct (lkey_eqb_spec (llvm_key (o, g')) (ld, g)) as [K|]; [|destruct HY]. unfold llvm_key in K. cbn [fst snd] in K.
  destruct (IH c (sym_ok_calls _ OS _ _ HI)) as [N|(p & NP & ->)]; [rewrite N in HY; destruct HY|].
  assert (LO : locok ld) by (assert (K1 : llvm_loc o = ld) by congruence; rewrite <- K1; apply loc_ok). destruct (llvm_loc_back ld LO) as (L1 & L2). exists ((fst ld * 2 ^ 32 + snd ld, g) :: p). split; [constructor; [exact L1|exact NP]|]. cbn [map]. f_equal. unfold llvm_key. cbn [fst snd]. rewrite L2. reflexivity.
Qed.
Lemma line_back l ns : lines_at l ns = [] \/ exists o, 0 <= o < 2 ^ 48 /\ l = llvm_loc o.
Proof.
  destruct (lines_at l ns) as [|y ys] eqn:E; [left; reflexivity|right]. assert (HY : In y (y :: ys)) by (left; reflexivity). rewrite <- E in HY. unfold lines_at in HY. apply in_flat_map in HY. destruct HY as (s & _ & HY). apply in_map_iff in HY. destruct HY as (e & _ & HY). apply filter_In in HY. destruct HY as (_ & HY). destruct (lloc_eqb_spec (llvm_loc (fst e)) l) as [<-|]; [|discriminate].
  pose proof (loc_ok (fst e)) as LO. destruct (llvm_loc_back _ LO) as (L1 & L2). eexists. split; [exact L1|]. symmetry. exact L2.
Qed.
Lemma narrow_no_overflow s : sym_ok s -> narrow s -> ~ llvm_overflow s.
Proof.
  intros OS NS (q & H). cbv zeta in H. destruct (path_back q s OS) as [E|(p & NP & ->)]; [rewrite E in H; destruct H as [H|(l & [H|(t & H)])]; cbn in H; lia|].
  rewrite (nodes_at_narrow p s OS NS NP) in H. destruct (node_at s p) as [x|] eqn:NA; [|destruct H as [H|(l & [H|(t & H)])]; cbn in H; lia]. destruct (node_ok p s x OS NS NA) as (OX & NX & _). destruct H as [H|(l & H)].
  - cbn [sumz] in H. inversion OX as [? ? ? ? ? ? U]; subst. cbn [s_total] in H. unfold is_u64 in U. lia.
  - destruct (line_back l [x]) as [E|(o & NO & ->)]; [rewrite E in H; destruct H as [H|(t & H)]; cbn in H; lia|]. rewrite (lines_at_narrow o x OX NX NO) in H. destruct (aget Z.eqb o (s_pos x)) as [i|] eqn:AP; [|destruct H as [H|(t & H)]; cbn in H; lia].
    assert (OI : pinfo_ok i) by (inversion OX as [? ? ? ? ? ? ? P]; subst; destruct P as [_ P]; rewrite Forall_forall in P; apply (aget_In Z.eqb Z.eqb_spec) in AP; exact (P _ AP)).
    destruct H as [H|(t & H)].
    + unfold count_sum in H. cbn [sumz] in H. destruct OI as (U & _). unfold is_u64 in U. lia.
    + unfold target_sum in H. rewrite (targets_of_one t i OI) in H. destruct (aget name_eqb t (p_targets i)) as [v|] eqn:AT; cbn [sumz] in H; [|lia]. apply (aget_In name_eqb name_eqb_spec) in AT. destruct OI as (_ & _ & _ & F). rewrite Forall_forall in F. specialize (F _ AT). unfold is_u64 in F. cbn [snd] in F. lia.
Qed.
(** Writing never stops for named functions with lines below 65536. *)
Corollary C58_narrow_never_stops : forall thr tops,
  NoDup (map fst tops) -> Forall (fun e => sym_ok (snd e) /\ narrow (snd e) /\ fst e <> [] /\ ~ nameless (snd e)) tops ->
  exists ps, write_llvm thr tops = Ok ps.
Proof.
  intros thr tops ND OK. pose proof (C58_llvm_profile thr tops ND) as W. rewrite Forall_forall in OK. specialize (W ltac:(apply Forall_forall; intros e He; apply OK; exact He)).
  destruct (write_llvm thr tops) as [ps| |]; [exists ps; reflexivity| |destruct W]. exfalso. destruct W as (n & s & HI & _ & H). destruct (OK _ HI) as (O1 & O2 & O3 & O4). cbn [fst snd] in *. destruct H as [H|[H|H]]; [exact (O3 H)|exact (O4 H)|exact (narrow_no_overflow s O1 O2 H)].
Qed.

(** *** Reading it back *)
Section Back.
Context (base : Z -> Z) (orig : name -> name).
Context (B : forall d, 0 <= d < 2 ^ 32 -> base d = d) (OID : forall t, orig t = t).
Lemma recs_at_one f q l : recs_at base [to_fs f] q l = recs_at_path base [] f q l.
Proof. unfold recs_at, recs_at_path. cbn [flat_map app]. rewrite app_nil_r. reflexivity. Qed.
Lemma recs_at_wide f q l : lwf f -> ~ (narrow_path q /\ 0 <= l < 2 ^ 48) -> recs_at base [to_fs f] q l = [].
Proof.
  intros W N. unfold recs_at. apply filter_none. cbn [flat_map]. rewrite app_nil_r. intros r H. destruct (srecs_ok base B f W [] r (Forall_nil _) H) as (A & C & _). destruct (path_eqb (r_path r) q) eqn:PE; [|reflexivity]. apply path_eqb_true in PE. subst q. cbn [andb]. apply Z.eqb_neq. intros <-. apply N. split; assumption.
Qed.
Lemma lwf_fs_ok f : lwf f -> fs_ok base (to_fs f).
Proof.
  intros W. split; [|split].
  - inversion W; subst. assumption.
  - inversion W; subst. assumption.
  - apply Forall_forall. intros r H. destruct (srecs_ok base B f W [] r (Forall_nil _) H) as (_ & _ & R1 & R2 & R3). split; [exact R1|exact R3].
Qed.
Lemma target_counts_one r t : target_counts orig [r] t = map snd (filter (fun tc => name_eqb (fst tc) t) (r_targets r)).
Proof. unfold target_counts. cbn [flat_map]. rewrite app_nil_r. f_equal. apply filter_ext. intros tc. rewrite OID. reflexivity. Qed.
Lemma filter_target t (m : list (name * Z)) : NoDup (akeys m) -> map snd (filter (fun tc => name_eqb (fst tc) t) m) = match aget name_eqb t m with Some v => [v] | None => [] end.
Proof. intros ND. rewrite map_filter_flat. rewrite (nd_flat name_eqb name_eqb_spec (fun g => name_eqb g t) (fun i => [i]) t); [reflexivity|exact ND|]. intros k v _. destruct (name_eqb_spec k t), (name_eqb_spec t k); congruence. Qed.
Lemma node_wf q : forall f x, lwf f -> fget q f = Some x -> lwf x.
Proof.
  induction q as [|k q IH]; intros f x W E; cbn [fget] in E; [injection E as <-; exact W|]. destruct (fchild k f) as [c|] eqn:FC; [|discriminate]. apply (IH c x); [|exact E]. inversion W; subst. apply (aget_In lkey_eqb lkey_eqb_spec) in FC. cbn [lf_calls] in FC. eauto.
Qed.
Lemma decide_narrow q l : {narrow_path q /\ 0 <= l < 2 ^ 48} + {~ (narrow_path q /\ 0 <= l < 2 ^ 48)}.
Proof.
  assert (D : forall z, {0 <= z < 2 ^ 48} + {~ (0 <= z < 2 ^ 48)}) by (intros z; destruct (Z_le_dec 0 z), (Z_lt_dec z (2 ^ 48)); [left; lia|right; lia|right; lia|right; lia]).
  destruct (Forall_dec (fun k : callsite => 0 <= fst k < 2 ^ 48) (fun k => D (fst k)) q) as [A|A]; [|right; intros [X _]; exact (A X)]. destruct (D l) as [C|C]; [left; split; assumption|right; intros [_ X]; exact (C X)].
Qed.
Lemma read_one n s f s' : sym_ok s -> narrow s -> llvm_of n s f -> lwf f -> is_merge_of base orig [to_fs f] s' ->
  s_head s' = s_head s /\ forall q l t,
    has_pos s' q l = has_pos s q l /\ count_at s' q l = count_at s q l /\ ninst_at s' q l = (if has_pos s q l then 1 else 0) /\
    has_target s' q l t = has_target s q l t /\ target_at s' q l t = target_at s q l t.
Proof.
  intros OS NS LO W (HE & _ & M). split.
  - rewrite HE. cbn [map zsum fold_right]. rewrite Z.add_0_r. destruct LO as (_ & LH & _). destruct f as [fn fh ft fb fc]. cbn [to_fs fs_head lf_head] in *. inversion W; subst. apply Z.mod_small. assumption.
  - intros q l t. destruct (M q l t) as (_ & _ & _ & HP & HC & HN & HT & HH). clear M. rewrite HP, HC, HN, HT. destruct (decide_narrow q l) as [[NQ NL]|WIDE].
    + pose proof (C58_one_to_one n s f OS NS LO q l t NQ NL) as OO. rewrite recs_at_one in *. rewrite (recs_at_spec base B q f [] l W NQ NL) in *. rewrite lnode_fget in *. destruct (fget (map llvm_key q) f) as [x|] eqn:FG.
      * destruct OO as (_ & _ & OO). destruct (lrecord x (llvm_loc l)) as [r|] eqn:LR.
        -- destruct OO as (O1 & O2 & O3). rewrite O1. pose proof (node_wf _ f x W FG) as WX. rewrite lrecord_aget in LR. apply (aget_In lloc_eqb lloc_eqb_spec) in LR. inversion WX as [? ? ? ? ? _ _ (_ & BF)]; subst. cbn [lf_body] in LR. rewrite Forall_forall in BF. destruct (BF _ LR) as (_ & R1 & R2 & R3). cbn [snd] in *.
           cbn [map zsum fold_right r_count length]. split; [reflexivity|]. split; [rewrite Z.add_0_r, Z.mod_small by exact R1; exact O2|]. split; [reflexivity|].
           rewrite target_counts_one in *. cbn [r_targets] in *. rewrite (filter_target t _ R2) in *. rewrite ltarget_aget in O3. destruct (aget name_eqb t (snd r)) as [v|].
           ++ destruct O3 as (O3 & O4). split; [rewrite O3; apply HH; discriminate|exact O4].
           ++ split; [|unfold target_at, has_target in *; destruct (pos_at s q l) as [i|]; [|reflexivity]; unfold tget; destruct (aget name_eqb t (p_targets i)); [discriminate|reflexivity]]. rewrite O3. destruct (has_target s' q l t); [exfalso; apply (proj1 HH eq_refl); reflexivity|reflexivity].
        -- rewrite OO. unfold has_pos in OO. unfold count_at, has_target, target_at. destruct (pos_at s q l); [discriminate|]. split; [reflexivity|]. split; [reflexivity|]. split; [reflexivity|]. split; [|reflexivity]. unfold has_target in HH. destruct (match pos_at s' q l with Some _ => _ | None => _ end); [exfalso; apply (proj1 HH eq_refl); reflexivity|reflexivity].
      * assert (PN : pos_at s q l = None) by (unfold has_node in OO; unfold pos_at; destruct (node_at s q); [discriminate|reflexivity]). unfold has_pos, count_at, has_target, target_at. rewrite PN. split; [reflexivity|]. split; [reflexivity|]. split; [reflexivity|]. split; [|reflexivity]. unfold has_target in HH. destruct (match pos_at s' q l with Some _ => _ | None => _ end); [exfalso; apply (proj1 HH eq_refl); reflexivity|reflexivity].
    + rewrite (recs_at_wide f q l W WIDE) in *. assert (PN : pos_at s q l = None).
      { unfold pos_at. destruct (node_at s q) as [x|] eqn:NA; [|reflexivity]. destruct (node_ok q s x OS NS NA) as (_ & NX & NQ). destruct (aget Z.eqb l (s_pos x)) as [i|] eqn:AP; [|reflexivity]. exfalso. apply WIDE. split; [exact NQ|]. destruct (narrow_parts x NX) as (NP & _). rewrite Forall_forall in NP. apply (aget_In Z.eqb Z.eqb_spec) in AP. exact (NP _ AP). }
      unfold has_pos, count_at, has_target, target_at. rewrite PN. split; [reflexivity|]. split; [reflexivity|]. split; [reflexivity|]. split; [|reflexivity]. unfold has_target in HH. destruct (match pos_at s' q l with Some _ => _ | None => _ end); [exfalso; apply (proj1 HH eq_refl); reflexivity|reflexivity].
Qed.
End Back.

(** Merging a written profile (with itself only) gives back, for every function
    it keeps, the head count and the counts and call targets at every inline path
    and location, provided no line is above 65535, discriminators are kept as
    they are and no name is elided. *)
Theorem C58_write_then_read : forall base orig scale thr tops ps,
  (forall d, 0 <= d < 2 ^ 32 -> base d = d) -> (forall t, orig t = t) ->
  NoDup (map fst tops) -> Forall (fun e => sym_ok (snd e) /\ narrow (snd e)) tops ->
  write_llvm thr tops = Ok ps ->
  exists thr' out, merge_llvm base orig scale None [map (fun e => to_fs (snd e)) ps] = Ok (thr', out) /\
    forall n s', In (n, s') out -> exists s, In (n, s) tops /\ thr < s64 (s_total s) /\
      s_head s' = s_head s /\ forall q l t,
        has_pos s' q l = has_pos s q l /\ count_at s' q l = count_at s q l /\
        ninst_at s' q l = (if has_pos s q l then 1 else 0) /\
        has_target s' q l t = has_target s q l t /\ target_at s' q l t = target_at s q l t.
Proof.
  intros base orig scale thr tops ps B OID ND OK WR. rewrite Forall_forall in OK.
  destruct (write_written thr tops ps ND ltac:(apply Forall_forall; intros e He; apply OK; exact He) WR) as (W1 & W2 & _).
  assert (NM : map fs_name (map (fun e : name * lfs => to_fs (snd e)) ps) = map fst ps).
  { rewrite map_map. apply map_ext_in. intros [n f] HI. cbn [fst snd]. destruct (W2 n f HI) as (s & _ & _ & _ & E & _). rewrite to_fs_name. exact E. }
  assert (PO : profile_ok base (map (fun e => to_fs (snd e)) ps)).
  { split; [rewrite NM; exact W1|]. apply Forall_forall. intros x Hx. apply in_map_iff in Hx. destruct Hx as ([n f] & <- & HI). cbn [snd]. destruct (W2 n f HI) as (s & _ & _ & (_ & LW) & _). exact (lwf_fs_ok base B f LW). }
  destruct (C54_counts_add_up base orig scale None [map (fun e => to_fs (snd e)) ps] (Forall_cons _ PO (Forall_nil _))) as (thr' & out & ME & H). exists thr', out. split; [exact ME|]. intros n s' HI. destruct (H n eq_refl) as (H1 & H2). pose proof (H1 s' HI) as MG. pose proof (proj1 H2 (in_map fst _ _ HI)) as (NE & _). clear H1 H2 H.
  unfold occurrences in *. cbn [concat] in *. rewrite app_nil_r in *.
  assert (OC : exists f, In (n, f) ps /\ filter (fun f => name_eqb (fs_name f) n) (map (fun e : name * lfs => to_fs (snd e)) ps) = [to_fs f]).
  { clear - NE W1 W2. assert (W3 : forall n f, In (n, f) ps -> lf_name f = n) by (intros n0 f0 H0; destruct (W2 n0 f0 H0) as (s & _ & _ & _ & E & _); exact E). clear W2. induction ps as [|[n1 f1] ps IH]; cbn [map filter snd] in *; [congruence|]. rewrite to_fs_name, (W3 n1 f1 (or_introl eq_refl)) in *. inversion W1 as [|? ? NI ND']; subst. cbn [fst] in NI. destruct (name_eqb_spec n1 n) as [->|N].
    - exists f1. split; [left; reflexivity|]. f_equal. apply filter_none. intros x Hx. apply in_map_iff in Hx. destruct Hx as ([n2 f2] & <- & H2). cbn [snd]. rewrite to_fs_name, (W3 n2 f2 (or_intror H2)). destruct (name_eqb_spec n2 n) as [->|]; [|reflexivity]. exfalso. apply NI. apply (in_map fst) in H2. exact H2.
    - destruct (IH ND' NE (fun n0 f0 H0 => W3 n0 f0 (or_intror H0))) as (f & F1 & F2). exists f. split; [right; exact F1|exact F2]. }
  destruct OC as (f & FI & FE). rewrite FE in MG. destruct (W2 n f FI) as (s & SI & EM & (RP & LW) & EN & EH). exists s. split; [exact SI|]. split; [exact EM|]. destruct (OK _ SI) as (OS & NS). cbn [snd] in OS, NS. apply (read_one base orig B OID n s f s' OS NS (proj1 (rep_of n s f RP EN EH)) LW MG).
Qed.

(** Beyond line 65535 the lines of a function run into each other: only 16 bits
    of a line reach LLVM. *)
Definition wide_symbol : symbol := Sym 1 30 0 [(1 * 2 ^ 32, PInfo 10 1 []); (65537 * 2 ^ 32, PInfo 20 1 [])] [].
Theorem C58_wide_lines_refuted :
  ~ (forall n s, sym_ok s -> forall thr ps f, write_llvm thr [(n, s)] = Ok ps -> In (n, f) ps ->
       forall l r, lrecord f (llvm_loc l) = Some r -> fst r = count_at s [] l).
Proof.
  intros H. assert (OK : sym_ok wide_symbol).
  { constructor; [unfold is_u64; lia|unfold is_u64; lia| |constructor|intros k c []]. split; [repeat constructor; cbn; intuition discriminate|]. repeat constructor; cbn; try lia; intros []. }
  specialize (H [102] wide_symbol OK 0 [([102], LFS [102] 1 30 [((1, 0), (30, []))] [])] (LFS [102] 1 30 [((1, 0), (30, []))] []) ltac:(vm_compute; reflexivity) (or_introl eq_refl) (1 * 2 ^ 32) (30, []) ltac:(vm_compute; reflexivity)). vm_compute in H. discriminate.
Qed.

(** A concrete case: a function with an inlined call and call targets. *)
Definition ex58 : symbol :=
  Sym 7 100 0 [(2 * 2 ^ 32 + 3, PInfo 40 2 [([103], 5); ([104], 6)])]
      [((5 * 2 ^ 32, [103]), Sym 0 60 0 [(1 * 2 ^ 32, PInfo 60 1 [])] [])].
Example C58_nonvacuous :
  sym_ok ex58 /\ narrow ex58 /\ ~ nameless ex58 /\
  write_llvm 10 [([102], ex58); ([103], Sym 0 5 0 [] [])] =
    Ok [([102], LFS [102] 7 100 [((2, 3), (40, [([103], 5); ([104], 6)]))]
                  [((5, 0, [103]), LFS [103] 0 60 [((1, 0), (60, []))] [])])] /\
  (exists m, merge_llvm (fun d => d) (fun t => t) (fun _ => 0) None
     [[FS [102] 7 100 [((2, 3), (40, [([103], 5); ([104], 6)]))] [((5, 0), FS [103] 0 60 [((1, 0), (60, []))] [])]]] = Ok (10, m) /\ map fst m = [[102]]) /\
  (exists s, write_llvm 10 [([102], s)] = Abort).
Proof.
  assert (C : sym_ok (Sym 0 60 0 [(1 * 2 ^ 32, PInfo 60 1 [])] [])).
  { constructor; [unfold is_u64; lia|unfold is_u64; lia| |constructor|intros k c []]. split; [repeat constructor; cbn; intuition discriminate|]. repeat constructor; cbn; try lia. }
  split.
  { constructor; [unfold is_u64; lia|unfold is_u64; lia| | |].
    - split; [repeat constructor; cbn; intuition discriminate|]. repeat constructor; cbn; try lia; intuition discriminate.
    - repeat constructor. intros [].
    - intros k c [E|[]]. assert (c = Sym 0 60 0 [(1 * 2 ^ 32, PInfo 60 1 [])] []) as -> by congruence. exact C. }
  split; [cbn; repeat split; try lia; repeat constructor; cbn; lia|].
  split; [cbn; intuition discriminate|].
  split; [vm_compute; reflexivity|].
  split; [eexists; split; [vm_compute; reflexivity|vm_compute; reflexivity]|].
  exists (Sym 0 20 0 [] [((1, []), sym0)]). vm_compute. reflexivity.
Qed.
Print Assumptions C58_llvm_profile.
Print Assumptions C58_one_to_one.
Print Assumptions C58_narrow_never_stops.
Print Assumptions C58_write_then_read.
Print Assumptions C58_wide_lines_refuted.
