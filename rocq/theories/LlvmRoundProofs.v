(** Reading back an LLVM profile that was written. *)
From Verif Require Import Base ByteModel AssocFold SymbolModel SymbolSpec SymbolProofs AfdoModel AfdoProofs SrcOffsetModel SrcOffsetProofs FlattenPureProofs FlattenMapProofs HybridSpec LlvmReadModel LlvmReadSpec LlvmWriteModel LlvmWriteSpec LlvmWriteProofs LlvmWriteRep.

Definition locok (ld : lloc) : Prop := 0 <= fst ld < 2 ^ 16 /\ 0 <= snd ld < 2 ^ 32.
Lemma loc_ok o : locok (llvm_loc o).
Proof. unfold locok, llvm_loc. cbn [fst snd]. split; apply Z.mod_pos_bound; lia. Qed.
Definition recok (r : Z * list (name * Z)) : Prop := is_u64 (fst r) /\ NoDup (akeys (snd r)) /\ Forall (fun tc => is_u64 (snd tc)) (snd r).
Definition bodyok (b : list (lloc * (Z * list (name * Z)))) : Prop := NoDup (akeys b) /\ Forall (fun e => locok (fst e) /\ recok (snd e)) b.
Inductive lwf : lfs -> Prop :=
| lwf_intro n h t b cs : is_u64 h -> is_u64 t -> bodyok b -> NoDup (akeys cs) ->
    (forall k c, In (k, c) cs -> locok (fst k) /\ lf_name c = snd k) ->
    (forall k c, In (k, c) cs -> lwf c) -> lwf (LFS n h t b cs).

Lemma Forall_aset {K V} (eqb : K -> K -> bool) (sp : forall a b, reflect (a = b) (eqb a b)) (P : K * V -> Prop) k v m :
  P (k, v) -> Forall P m -> Forall P (aset eqb k v m).
Proof.
  intros H F. induction F as [|[k' v'] m H' F IH]; cbn [aset]; [constructor; [exact H|constructor]|]. destruct (sp k k') as [->|N]; constructor; try assumption.
Qed.
Lemma body_get_ok l b : bodyok b -> recok (body_get l b).
Proof.
  intros [_ F]. unfold body_get. destruct (aget lloc_eqb l b) as [r|] eqn:E; [|split; [unfold is_u64; cbn [fst]; lia|split; constructor]].
  apply (aget_In lloc_eqb lloc_eqb_spec) in E. rewrite Forall_forall in F. exact (proj2 (F _ E)).
Qed.
Lemma sat_u64 a b c : is_u64 a -> 0 <= b -> sat_add a b = Ok c -> is_u64 c.
Proof. unfold sat_add, is_u64. intros H B. destruct (Z.ltb_spec (a + b) (2 ^ 64)); [|discriminate]. intros E. injection E as <-. lia. Qed.
Definition keeps (f f' : lfs) : Prop := lwf f -> lwf f' /\ lf_name f' = lf_name f.
Lemma keeps_trans a b c : keeps a b -> keeps b c -> keeps a c.
Proof. unfold keeps. intros H K L. destruct (H L) as (L1 & N1). destruct (K L1) as (L2 & N2). split; [exact L2|congruence]. Qed.
Lemma add_total_keeps x f f' : 0 <= x -> LlvmWriteModel.add_total x f = Ok f' -> keeps f f'.
Proof.
  intros P. destruct f as [n h t b cs]. cbn [LlvmWriteModel.add_total]. destruct (sat_add t x) as [t'| |] eqn:E; cbn [obind]; [|discriminate|discriminate]. intros H. injection H as <-. intros L. inversion L; subst. split; [|reflexivity]. constructor; try assumption. exact (sat_u64 t x t' ltac:(assumption) P E).
Qed.
Lemma add_head_keeps x f f' : 0 <= x -> add_head x f = Ok f' -> keeps f f'.
Proof.
  intros P. destruct f as [n h t b cs]. cbn [add_head]. destruct (sat_add h x) as [t'| |] eqn:E; cbn [obind]; [|discriminate|discriminate]. intros H. injection H as <-. intros L. inversion L; subst. split; [|reflexivity]. constructor; try assumption. exact (sat_u64 h x t' ltac:(assumption) P E).
Qed.
Lemma add_body_keeps l x f f' : locok l -> 0 <= x -> add_body l x f = Ok f' -> keeps f f'.
Proof.
  intros LO P. destruct f as [n h t b cs]. cbn [add_body]. destruct (sat_add _ x) as [v| |] eqn:E; cbn [obind]; [|discriminate|discriminate]. intros H. injection H as <-. intros L. inversion L as [? ? ? ? ? A1 A2 A3 A4 A5 A6]; subst. split; [|reflexivity]. constructor; try assumption.
  pose proof (body_get_ok l b A3) as (R1 & R2). split; [apply (NoDup_akeys_aset lloc_eqb lloc_eqb_spec), A3|]. apply (Forall_aset lloc_eqb lloc_eqb_spec); [|apply A3]. cbn [fst snd]. split; [exact LO|]. split; [exact (sat_u64 _ _ _ R1 P E)|exact R2].
Qed.
Lemma tget_u64 g m : Forall (fun tc => is_u64 (snd tc)) m -> is_u64 (tget g m).
Proof.
  intros F. unfold tget. destruct (aget name_eqb g m) as [v|] eqn:E; [|unfold is_u64; lia]. apply (aget_In name_eqb name_eqb_spec) in E. rewrite Forall_forall in F. exact (F _ E).
Qed.
Lemma add_target_keeps l g x f f' : locok l -> 0 <= x -> add_target l g x f = Ok f' -> keeps f f'.
Proof.
  intros LO P. destruct f as [n h t b cs]. cbn [add_target]. destruct (sat_add _ x) as [v| |] eqn:E; cbn [obind]; [|discriminate|discriminate]. intros H. injection H as <-. intros L. inversion L as [? ? ? ? ? A1 A2 A3 A4 A5 A6]; subst. split; [|reflexivity]. constructor; try assumption.
  pose proof (body_get_ok l b A3) as (R1 & R2 & R3). split; [apply (NoDup_akeys_aset lloc_eqb lloc_eqb_spec), A3|]. apply (Forall_aset lloc_eqb lloc_eqb_spec); [|apply A3]. cbn [fst snd]. split; [exact LO|]. split; [exact R1|]. cbn [snd]. split; [apply (NoDup_akeys_aset name_eqb name_eqb_spec), R2|].
  apply (Forall_aset name_eqb name_eqb_spec); [|exact R3]. cbn [snd]. exact (sat_u64 _ _ _ (tget_u64 g _ R3) P E).
Qed.
Lemma targets_keeps l ts : locok l -> Forall (fun tx => 0 <= snd tx) ts -> forall f f', visit_targets l ts f = Ok f' -> keeps f f'.
Proof.
  intros LO. induction 1 as [|[t x] ts P F IH]; intros f f' H; cbn [visit_targets] in H.
  - injection H as <-. intros L. split; [exact L|reflexivity].
  - destruct (add_target l t x f) as [f1| |] eqn:E; cbn [obind] in H; [|discriminate|discriminate]. exact (keeps_trans _ _ _ (add_target_keeps _ _ _ _ _ LO P E) (IH _ _ H)).
Qed.
Lemma body_keeps pos : pos_pos pos -> forall f f', visit_body pos f = Ok f' -> keeps f f'.
Proof.
  induction 1 as [|[o i] pos [P1 P2] F IH]; intros f f' H; cbn [visit_body] in H.
  - injection H as <-. intros L. split; [exact L|reflexivity].
  - assert (LO : locok (line_disc o)) by (rewrite line_disc_loc; apply loc_ok). destruct (add_body _ _ f) as [f1| |] eqn:E; cbn [obind] in H; [|discriminate|discriminate]. destruct (visit_targets _ _ f1) as [f2| |] eqn:E2; cbn [obind] in H; [|discriminate|discriminate].
    exact (keeps_trans _ _ _ (add_body_keeps _ _ _ _ LO P1 E) (keeps_trans _ _ _ (targets_keeps _ _ LO P2 _ _ E2) (IH _ _ H))).
Qed.
Lemma lwf0 n : lwf (set_function n lfs0).
Proof.
  cbn [set_function lfs0]. constructor; [unfold is_u64; lia|unfold is_u64; lia|split; constructor|constructor|intros k c []|intros k c []].
Qed.
Lemma wr_keeps table s : sym_ok s -> forall level f f', wr table level s f = Ok f' -> keeps f f'.
Proof.
  induction s as [h t ts pos cs IH] using symbol_ind'. intros OS level f f' H. rewrite wr_eq in H. pose proof (sym_ok_pos _ OS) as PP. pose proof (sym_ok_total _ OS) as TP. pose proof (sym_ok_calls _ OS) as OC. unfold visit_node in H. cbn [s_total s_pos s_calls] in *.
  match type of H with context [if ?b then ?x else ?y] => destruct (if b then x else y) as [f1| |] eqn:E1 end; cbn [obind] in H; [|discriminate|discriminate].
  assert (K1 : keeps f f1).
  { destruct (1 <? S level)%nat; [exact (add_total_keeps _ _ _ TP E1)|]. injection E1 as <-. intros L. split; [exact L|reflexivity]. }
  destruct (visit_body pos f1) as [f2| |] eqn:E2; cbn [obind] in H; [|discriminate|discriminate]. refine (keeps_trans _ _ _ K1 (keeps_trans _ _ _ (body_keeps _ PP _ _ E2) _)). clear E1 E2 K1 f f1.
  revert f2 H. induction cs as [|[[o g] c] cs IHc]; intros f2 H; cbn [wr_calls] in H.
  - injection H as <-. intros L. split; [exact L|reflexivity].
  - cbn [fst snd] in H. destruct (checked_name g) as [n| |] eqn:E1; cbn [obind] in H; [|discriminate|discriminate]. destruct (GetNameRef table n) as [n'| |] eqn:E3; cbn [obind] in H; [|discriminate|discriminate].
    destruct (wr table (S level) c _) as [c'| |] eqn:E2; cbn [obind] in H; [|discriminate|discriminate].
    assert (OK' : sym_ok (Sym h t ts pos cs)) by (inversion OS as [? ? ? ? ? B1 B2 B3 B4 B5]; subst; constructor; try assumption; [inversion B4; assumption|intros k0 c0 H0; apply (B5 k0 c0); right; exact H0]).
    refine (keeps_trans _ _ _ _ (IHc (fun k0 c0 H0 => IH k0 c0 (or_intror H0)) OK' (fun k0 c0 H0 => OC k0 c0 (or_intror H0)) _ H)).
    pose proof (IH (o, g) c (or_introl eq_refl) (OC _ _ (or_introl eq_refl)) _ _ _ E2) as K. intros L. split; [|destruct f2; reflexivity]. inversion L as [n0 h0 t0 b0 cs0 A1 A2 A3 A4 A5 A6]; subst. cbn [set_child].
    match goal with |- lwf (LFS _ _ _ _ (aset _ ?k _ _)) => set (key := k : lkey) in *; change k with key in K |- * end.
    assert (CW : lwf (child_or_new key (LFS n0 h0 t0 b0 cs0))).
    { unfold child_or_new. destruct (fchild key _) as [c0|] eqn:FC; [|apply lwf0]. apply (aget_In lkey_eqb lkey_eqb_spec) in FC. pose proof (A6 _ _ FC) as LC. inversion LC; subst. constructor; assumption. }
    destruct (K CW) as (W1 & W2). constructor; try assumption.
    + apply (NoDup_akeys_aset lkey_eqb lkey_eqb_spec), A4.
    + intros k1 c1 H1. apply (In_aset_kv lkey_eqb lkey_eqb_spec) in H1. destruct H1 as [[-> ->]|H1]; [|exact (A5 _ _ H1)]. split; [unfold key; cbn [fst]; rewrite line_disc_loc; apply loc_ok|]. rewrite W2. unfold child_or_new. match goal with |- context [set_function _ ?x] => destruct x end. reflexivity.
    + intros k1 c1 H1. apply (In_aset_kv lkey_eqb lkey_eqb_spec) in H1. destruct H1 as [[-> ->]|H1]; [exact W1|exact (A6 _ _ H1)].
Qed.

(** *** The records of a profile *)
Lemma loc_of_eq base ld : (forall d, 0 <= d < 2 ^ 32 -> base d = d) -> locok ld -> loc_of base ld = fst ld * 2 ^ 32 + snd ld.
Proof.
  intros B [H1 H2]. unfold loc_of. rewrite B by exact H2. rewrite (Z.mod_small (fst ld)) by lia. rewrite GenerateOffset_eq; [reflexivity|unfold is_u32; lia|unfold is_u32; lia].
Qed.
Lemma llvm_loc_of o : 0 <= o < 2 ^ 48 -> fst (llvm_loc o) * 2 ^ 32 + snd (llvm_loc o) = o.
Proof.
  intros H. unfold llvm_loc. cbn [fst snd]. rewrite (Z.mod_small (o / 2 ^ 32)).
  - pose proof (Z.div_mod o (2 ^ 32) ltac:(lia)). lia.
  - split; [apply Z.div_pos; lia|]. apply Z.div_lt_upper_bound; lia.
Qed.
Lemma llvm_loc_back ld : locok ld -> 0 <= fst ld * 2 ^ 32 + snd ld < 2 ^ 48 /\ llvm_loc (fst ld * 2 ^ 32 + snd ld) = ld.
Proof.
  intros [H1 H2]. split; [lia|]. unfold llvm_loc. destruct ld as [a b]. cbn [fst snd] in *. f_equal.
  - rewrite Z.div_add_l by lia. rewrite (Z.div_small b) by lia. rewrite Z.mod_small by lia. lia.
  - rewrite Z.add_comm, Z.mod_add by lia. apply Z.mod_small. lia.
Qed.
Definition narrow_path (q : path) : Prop := Forall (fun k => 0 <= fst k < 2 ^ 48) q.

Section Read.
Context (base : Z -> Z) (B : forall d, 0 <= d < 2 ^ 32 -> base d = d).
Lemma path_eqb_refl' q : path_eqb q q = true.
Proof. induction q as [|[o g] q IH]; cbn [path_eqb]; [reflexivity|]. unfold callsite_eqb. cbn [fst snd]. rewrite Z.eqb_refl. destruct (name_eqb_spec g g); [exact IH|congruence]. Qed.
Lemma path_eqb_true q p : path_eqb q p = true -> q = p.
Proof.
  revert p. induction q as [|k q IH]; intros [|k' p] H; cbn [path_eqb] in H; try discriminate; [reflexivity|]. apply andb_prop in H. destruct H as (H1 & H2). destruct (callsite_eqb_spec k k'); [|discriminate]. f_equal; [assumption|apply IH; exact H2].
Qed.
Lemma srecs_prefix f : forall P r, In r (srecs base P (to_fs f)) -> exists q, r_path r = P ++ q.
Proof.
  revert f. fix IH 1. intros [n h t b cs] P r H. cbn [to_fs srecs] in H. apply in_app_or in H. destruct H as [H|H].
  - apply in_map_iff in H. destruct H as (x & <- & _). exists []. cbn [r_path]. symmetry. apply app_nil_r.
  - clear b. induction cs as [|[k c] cs IHc]; [destruct H|]. cbn [map flat_map fst snd] in H. apply in_app_or in H. destruct H as [H|H]; [|exact (IHc H)].
    pose proof (IH c) as IH'. destruct (to_fs c) as [cn ch ct cb cc]. apply IH' in H. destruct H as (q & E). exists ((loc_of base (fst k), cn) :: q). rewrite E, <- app_assoc. reflexivity.
Qed.
Definition recs_at_path (P : path) (f : lfs) (q : path) (l : Z) : list srec :=
  filter (fun r => path_eqb (r_path r) (P ++ q) && (r_loc r =? l)) (srecs base P (to_fs f)).
Lemma filter_none {A} (p : A -> bool) l : (forall x, In x l -> p x = false) -> filter p l = [].
Proof. induction l as [|x l IH]; intros H; cbn [filter]; [reflexivity|]. rewrite (H x (or_introl eq_refl)). apply IH. intros y Hy. apply H. right. exact Hy. Qed.
Lemma to_fs_eq n h t b cs : to_fs (LFS n h t b cs) = FS n h t b (map (fun kc => (fst (fst kc), to_fs (snd kc))) cs).
Proof. reflexivity. Qed.
Lemma to_fs_name c : fs_name (to_fs c) = lf_name c. Proof. destruct c; reflexivity. Qed.
Lemma recs_at_spec q : forall f P l, lwf f -> narrow_path q -> 0 <= l < 2 ^ 48 ->
  recs_at_path P f q l = match lnode f (map llvm_key q) with
                         | Some x => match lrecord x (llvm_loc l) with Some r => [SRec (P ++ q) l (fst r) (snd r)] | None => [] end
                         | None => []
                         end.
Proof.
  induction q as [|k q IH]; intros f P l W NQ NL; inversion W as [n h t b cs A1 A2 A3 A4 A5 A6]; subst.
  - cbn [map lnode]. unfold recs_at_path. rewrite to_fs_eq. cbn [srecs]. rewrite filter_app, app_nil_r, lrecord_aget. cbn [lf_body].
    rewrite (filter_none _ (flat_map _ _)).
    2: { intros r H. apply in_flat_map in H. destruct H as ([k c] & HI & H). apply in_map_iff in HI. destruct HI as ([k0 c0] & E0 & _). cbn [fst snd] in *. injection E0 as <- <-.
      assert (N : r_path r <> P).
      { pose proof (srecs_prefix c0) as SP. destruct (to_fs c0) as [cn ch ct cb cc]. apply SP in H. destruct H as (q & E). rewrite E, <- app_assoc. intros X. apply (f_equal (@length _)) in X. rewrite !app_length in X. cbn [length] in X. lia. }
      destruct (path_eqb (r_path r) P) eqn:PE; [apply path_eqb_true in PE; congruence|reflexivity]. }
    rewrite app_nil_r. destruct A3 as [ND F]. clear - B ND F NL. induction b as [|[ld r] b IHb]; [reflexivity|]. cbn [map filter r_path r_loc fst snd aget]. rewrite path_eqb_refl'. cbn [andb].
    inversion ND as [|? ? NI ND']; subst. inversion F as [|? ? [LO _] F']; subst. cbn [fst] in *. rewrite (loc_of_eq base ld B LO). destruct (lloc_eqb_spec (llvm_loc l) ld) as [E|N].
    + subst ld. rewrite llvm_loc_of by exact NL. rewrite Z.eqb_refl. f_equal. apply filter_none. intros x Hx. apply in_map_iff in Hx. destruct Hx as ([ld' r'] & <- & HI). cbn [r_path r_loc fst snd]. rewrite path_eqb_refl'. cbn [andb]. apply Z.eqb_neq. intros E. apply NI.
      rewrite Forall_forall in F'. pose proof (proj1 (F' _ HI)) as LO'. cbn [fst] in LO'. rewrite (loc_of_eq base ld' B LO') in E. pose proof (proj2 (llvm_loc_back ld' LO')) as EB. rewrite E in EB. rewrite EB. apply (in_map fst) in HI. exact HI.
    + destruct (Z.eqb_spec (fst ld * 2 ^ 32 + snd ld) l) as [E|_]; [exfalso; apply N; rewrite <- E; apply llvm_loc_back; exact LO|]. exact (IHb ND' F').
  - inversion NQ as [|? ? NK NQ']; subst. unfold recs_at_path. rewrite to_fs_eq. cbn [srecs map lnode lf_calls]. rewrite filter_app. rewrite filter_none.
    2: { intros r H. apply in_map_iff in H. destruct H as (x & <- & _). cbn [r_path]. destruct (path_eqb P (P ++ k :: q)) eqn:PE; [|reflexivity]. apply path_eqb_true in PE. apply (f_equal (@length _)) in PE. rewrite app_length in PE. cbn [length] in PE. lia. }
    cbn [app]. clear A1 A2 A3 W b h t n. induction cs as [|[[ld g] c] cs IHc]; [reflexivity|]. cbn [map flat_map fst snd find]. rewrite filter_app.
    inversion A4 as [|? ? NI ND']; subst. destruct (A5 _ _ (or_introl eq_refl)) as (LO & NM). pose proof (A6 _ _ (or_introl eq_refl)) as WC. cbn [fst snd] in LO, NM.
    specialize (IHc ND' (fun k0 c0 H0 => A5 k0 c0 (or_intror H0)) (fun k0 c0 H0 => A6 k0 c0 (or_intror H0))).
    assert (EF : match to_fs c with FS callee _ _ _ _ => srecs base (P ++ [(loc_of base ld, callee)]) (to_fs c) end = srecs base (P ++ [(loc_of base ld, g)]) (to_fs c)).
    { pose proof (to_fs_name c) as TN. rewrite NM in TN. destruct (to_fs c); cbn [fs_name] in TN. rewrite TN. reflexivity. }
    match goal with |- filter ?p ?x ++ _ = _ => replace x with (srecs base (P ++ [(loc_of base ld, g)]) (to_fs c)) by (symmetry; exact EF) end.
    rewrite (loc_of_eq base ld B LO). destruct (lkey_eqb_spec (ld, g) (llvm_key k)) as [E|N].
    + unfold llvm_key in E. destruct k as [o gk]. cbn [fst snd] in *. assert (E1 : ld = llvm_loc o) by congruence. assert (E2 : g = gk) by congruence. clear E. rewrite E2 in *. clear E2 g. subst ld. rewrite llvm_loc_of by exact NK.
      specialize (IH c (P ++ [(o, gk)]) l WC NQ' NL). unfold recs_at_path in IH. rewrite <- app_assoc in IH. cbn [app] in IH.
      assert (RN : filter (fun r => path_eqb (r_path r) (P ++ (o, gk) :: q) && (r_loc r =? l)) (flat_map (fun x => match snd x with FS callee _ _ _ _ => srecs base (P ++ [(loc_of base (fst x), callee)]) (snd x) end) (map (fun kc : lkey * lfs => (fst (fst kc), to_fs (snd kc))) cs)) = []).
      { etransitivity; [exact IHc|]. replace (find (fun kc => lkey_eqb (fst kc) (llvm_key (o, gk))) cs) with (@None (lkey * lfs)); [reflexivity|]. symmetry. destruct (find _ cs) as [[k1 c1]|] eqn:FE; [|reflexivity]. apply find_some in FE. destruct FE as (FI & FQ). cbn [fst] in FQ. destruct (lkey_eqb_spec k1 (llvm_key (o, gk))) as [->|]; [|discriminate]. exfalso. apply NI. apply (in_map fst) in FI. exact FI. }
      etransitivity; [apply (f_equal2 (@app srec)); [exact IH|exact RN]|]. rewrite app_nil_r. reflexivity.
    + rewrite filter_none; [exact IHc|]. intros r H. apply srecs_prefix in H. destruct H as (q1 & E). destruct (path_eqb (r_path r) (P ++ k :: q)) eqn:PE; [|reflexivity]. apply path_eqb_true in PE. rewrite E, <- app_assoc in PE. apply app_inv_head in PE. cbn [app] in PE.
      exfalso. apply N. destruct k as [o gk]. assert (E1 : fst ld * 2 ^ 32 + snd ld = o) by congruence. assert (E2 : g = gk) by congruence. unfold llvm_key. cbn [fst snd]. rewrite <- E1, E2, (proj2 (llvm_loc_back ld LO)). reflexivity.
Qed.
(** every record is at a narrow path and location, with 64-bit counts *)
Lemma srecs_ok f : lwf f -> forall P r, narrow_path P -> In r (srecs base P (to_fs f)) ->
  narrow_path (r_path r) /\ 0 <= r_loc r < 2 ^ 48 /\ recok (r_count r, r_targets r).
Proof.
  induction 1 as [n h t b cs A1 A2 A3 A4 A5 A6 IH]. intros P r NP H. rewrite to_fs_eq in H. cbn [srecs] in H. apply in_app_or in H. destruct H as [H|H].
  - apply in_map_iff in H. destruct H as ([ld rr] & <- & HI). cbn [r_path r_loc r_count r_targets fst snd]. destruct A3 as [_ F]. rewrite Forall_forall in F. destruct (F _ HI) as (LO & RO). cbn [fst snd] in *. split; [exact NP|]. split; [rewrite (loc_of_eq base ld B LO); apply llvm_loc_back; exact LO|]. destruct rr. exact RO.
  - apply in_flat_map in H. destruct H as ([ld g] & HI & H). apply in_map_iff in HI. destruct HI as ([k c] & E0 & HI). cbn [fst snd] in *. assert (EG : g = to_fs c) by congruence. assert (EL : ld = fst k) by congruence. subst g ld. clear E0.
    destruct (A5 _ _ HI) as (LO & _). pose proof (IH _ _ HI) as IHc. destruct (to_fs c) as [cn ch ct cb cc]. apply (IHc (P ++ [(loc_of base (fst k), cn)])); [|exact H]. apply Forall_app. split; [exact NP|]. constructor; [|constructor]. cbn [fst]. rewrite (loc_of_eq base (fst k) B LO). apply llvm_loc_back. exact LO.
Qed.
End Read.
