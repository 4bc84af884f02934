(** Proofs about merging function profiles. *)
From Verif Require Import Base AssocFold SymbolModel SymbolSpec.
From Coq Require Import Permutation.
Ltac Zify.zify_post_hook ::= Z.div_mod_to_equations.

Lemma name_eqb_spec a b : reflect (a = b) (name_eqb a b).
Proof.
  revert b; induction a as [|x a IH]; intros [|y b]; cbn [name_eqb]; try (constructor; congruence).
  destruct (Z.eqb_spec x y) as [->|H]; cbn [andb]; [|constructor; congruence].
  destruct (IH b) as [->|H]; constructor; congruence.
Qed.
Lemma callsite_eqb_spec a b : reflect (a = b) (callsite_eqb a b).
Proof.
  destruct a as [l n], b as [l' n']. unfold callsite_eqb. cbn [fst snd].
  destruct (Z.eqb_spec l l') as [->|H]; cbn [andb]; [|constructor; congruence].
  destruct (name_eqb_spec n n') as [->|H]; constructor; congruence.
Qed.
#[export] Hint Resolve name_eqb_spec callsite_eqb_spec Z_eqb_reflect : core.

(** Induction over nested symbols. *)
Section SymInd.
  Variable P : symbol -> Prop.
  Hypothesis H : forall h t ts pos calls,
    (forall k c, In (k, c) calls -> P c) -> P (Sym h t ts pos calls).
  Fixpoint symbol_ind' (s : symbol) : P s :=
    match s with
    | Sym h t ts pos calls =>
        H h t ts pos calls
          ((fix go (l : list (callsite * symbol)) : forall k c, In (k, c) l -> P c :=
              match l return forall k c, In (k, c) l -> P c with
              | [] => fun k c f => match f with end
              | (k', c') :: l' => fun k c i =>
                  match i with
                  | or_introl e => eq_ind c' P (symbol_ind' c') c (f_equal snd e)
                  | or_intror i' => go l' k c i'
                  end
              end) calls)
    end.
End SymInd.

Lemma merge_eq d s :
  merge d s = Sym (add64 (s_head d) (s_head s)) (add64 (s_total d) (s_total s)) (s_ts d)
                (pos_add (s_pos d) (s_pos s)) (calls_merge (s_calls d) (s_calls s)).
Proof.
  destruct s as [h t ts pos calls]. cbn [merge s_head s_total s_pos s_calls]. f_equal.
  unfold calls_merge. generalize (s_calls d) as acc.
  induction calls as [|[k c] l IH]; intros acc; [reflexivity|]. cbn [fold_left]. apply IH.
Qed.

Lemma pos_add_foldin d s : pos_add d s = foldin Z.eqb pinfo_add pinfo0 s d.
Proof. reflexivity. Qed.
Lemma targets_add_foldin d s : targets_add d s = foldin name_eqb add64 0 s d.
Proof. reflexivity. Qed.
Lemma calls_merge_foldin d s : calls_merge d s = foldin callsite_eqb merge sym0 s d.
Proof. reflexivity. Qed.

Lemma u64_range x : is_u64 (u64 x).
Proof. unfold is_u64, u64, w64. change (2^64) with 18446744073709551616. lia. Qed.
Lemma u64_id x : is_u64 x -> u64 x = x.
Proof. unfold is_u64, u64, w64. change (2^64) with 18446744073709551616. lia. Qed.
Lemma u64_0 : is_u64 0.
Proof. unfold is_u64. lia. Qed.
Lemma add64_0_l x : is_u64 x -> add64 0 x = x.
Proof. intros; unfold add64; cbn [Z.add]; apply u64_id; assumption. Qed.
Lemma add64_0_r x : is_u64 x -> add64 x 0 = x.
Proof. intros; unfold add64; rewrite Z.add_0_r; apply u64_id; assumption. Qed.
Lemma add64_range a b : is_u64 (add64 a b).
Proof. apply u64_range. Qed.
Lemma add64_comm a b : add64 a b = add64 b a.
Proof. unfold add64; f_equal; lia. Qed.
Lemma add64_assoc a b c : add64 (add64 a b) c = add64 a (add64 b c).
Proof. unfold add64, u64. rewrite Zplus_mod_idemp_l, Zplus_mod_idemp_r. f_equal. lia. Qed.
#[export] Hint Resolve u64_range u64_0 add64_range : core.

(** Well-formedness. *)
Lemma In_Forall_snd {K V} (P : V -> Prop) (l : list (K * V)) :
  Forall (fun kv => P (snd kv)) l <-> forall k v, In (k, v) l -> P v.
Proof.
  rewrite Forall_forall. split.
  - intros H k v Hi. apply (H _ Hi).
  - intros H [k v] Hi. apply (H k v Hi).
Qed.

Lemma targets_ok_add d s : targets_ok d -> targets_ok s -> targets_ok (targets_add d s).
Proof.
  intros [Hd Fd] [Hs Fs]. split.
  - apply NoDup_foldin; auto.
  - rewrite In_Forall_snd in *. rewrite targets_add_foldin.
    apply foldin_pres with (Q := is_u64); eauto.
Qed.
Lemma pinfo0_ok : pinfo_ok pinfo0.
Proof. repeat split; try apply u64_0; constructor. Qed.
Lemma pinfo_ok_add d s : pinfo_ok d -> pinfo_ok s -> pinfo_ok (pinfo_add d s).
Proof.
  intros (H1 & H2 & H3) (G1 & G2 & G3).
  split; [|split]; cbn [pinfo_add p_count p_ninst p_targets]; auto using targets_ok_add.
Qed.
Lemma pos_ok_add d s : pos_ok d -> pos_ok s -> pos_ok (pos_add d s).
Proof.
  intros [Hd Fd] [Hs Fs]. split.
  - apply NoDup_foldin; auto.
  - rewrite In_Forall_snd in *. rewrite pos_add_foldin.
    apply foldin_pres with (Q := pinfo_ok); eauto using pinfo0_ok, pinfo_ok_add.
Qed.
Lemma sym0_ok : sym_ok sym0.
Proof.
  constructor; auto; try (split; constructor); try constructor.
  intros ? ? [].
Qed.
Lemma merge_ok s : sym_ok s -> forall d, sym_ok d -> sym_ok (merge d s).
Proof.
  induction s as [h t ts pos calls IH] using symbol_ind'. intros Hs d Hd.
  rewrite merge_eq. inversion Hs as [? ? ? ? ? Hh Ht Hp Hn Hc]; subst.
  destruct Hd as [h' t' ts' pos' calls' Hh' Ht' Hp' Hn' Hc'].
  cbn [s_head s_total s_pos s_calls s_ts]. constructor; auto using pos_ok_add.
  - apply NoDup_foldin; auto.
  - rewrite calls_merge_foldin.
    apply foldin_pres with (Q := fun c => sym_ok c /\ forall d, sym_ok d -> sym_ok (merge d c));
      auto using sym0_ok.
    + intros a b Ha [_ Hb]; auto.
    + intros k v Hi. split; [eauto|]. eapply IH; eauto.
Qed.

Lemma sym_ok_child s k c : sym_ok s -> aget callsite_eqb k (s_calls s) = Some c -> sym_ok c.
Proof.
  intros Hs E. destruct Hs as [? ? ? ? ? ? ? ? ? Hc]. cbn [s_calls] in E.
  apply aget_In in E; auto. eapply Hc; eauto.
Qed.
Lemma node_at_ok p : forall s n, sym_ok s -> node_at s p = Some n -> sym_ok n.
Proof.
  induction p as [|k p IH]; cbn [node_at]; intros s n Hs E; [congruence|].
  destruct (aget callsite_eqb k (s_calls s)) eqn:Ec; [|discriminate].
  eauto using sym_ok_child.
Qed.

(** The node of a merge. *)
Lemma node_at_merge p : forall d s, sym_ok d -> sym_ok s ->
  node_at (merge d s) p =
  match node_at d p, node_at s p with
  | a, None => a
  | None, Some b => Some (merge sym0 b)
  | Some a, Some b => Some (merge a b)
  end.
Proof.
  induction p as [|k p IH]; intros d s Hd Hs; cbn [node_at]; [reflexivity|].
  rewrite merge_eq. cbn [s_calls]. rewrite calls_merge_foldin.
  assert (Hn : NoDup (akeys (s_calls s))) by (destruct Hs; assumption).
  rewrite aget_foldin by auto. unfold getd.
  destruct (aget callsite_eqb k (s_calls s)) as [c|] eqn:Ec.
  - assert (sym_ok c) by eauto using sym_ok_child.
    destruct (aget callsite_eqb k (s_calls d)) as [e|] eqn:Ed.
    + rewrite IH by eauto using sym_ok_child. reflexivity.
    + rewrite IH by auto using sym0_ok.
      destruct p as [|k' p']; cbn [node_at]; [reflexivity|].
      cbn [sym0 s_calls aget]. reflexivity.
  - destruct (aget callsite_eqb k (s_calls d)) as [e|]; [|reflexivity].
    destruct (node_at e p); reflexivity.
Qed.

Definition onode (o : option symbol) : symbol := match o with Some n => n | None => sym0 end.

Lemma tget_add t d s : targets_ok d -> targets_ok s ->
  tget t (targets_add d s) = add64 (tget t d) (tget t s).
Proof.
  intros [Hd Fd] [Hs Fs]. unfold tget. rewrite targets_add_foldin, aget_foldin by auto.
  unfold getd. destruct (aget name_eqb t s) as [c|] eqn:E; [reflexivity|].
  destruct (aget name_eqb t d) as [v|] eqn:Ed; [|reflexivity].
  rewrite add64_0_r; [reflexivity|]. apply aget_In in Ed; auto.
  rewrite In_Forall_snd in Fd. eauto.
Qed.

Lemma aget_targets_add t d s : NoDup (akeys s) ->
  (if aget name_eqb t (targets_add d s) then true else false) =
  (if aget name_eqb t d then true else false) || (if aget name_eqb t s then true else false).
Proof.
  intros Hs. rewrite targets_add_foldin, aget_foldin by auto.
  destruct (aget name_eqb t s), (aget name_eqb t d); reflexivity.
Qed.

(** Pointwise sums, at a node. *)
Lemma pget_add l d s : pos_ok s ->
  aget Z.eqb l (pos_add d s) =
  match aget Z.eqb l s with Some i => Some (pinfo_add (pget l d) i) | None => aget Z.eqb l d end.
Proof. intros [Hs Fs]. rewrite pos_add_foldin, aget_foldin by auto. reflexivity. Qed.

Definition obs_count (o : option pinfo) := match o with Some i => p_count i | None => 0 end.

Lemma sym_ok_pos s : sym_ok s -> pos_ok (s_pos s).
Proof. intros []; assumption. Qed.
Lemma sym_ok_total s : sym_ok s -> is_u64 (s_total s).
Proof. intros []; assumption. Qed.
Lemma sym_ok_head s : sym_ok s -> is_u64 (s_head s).
Proof. intros []; assumption. Qed.
Lemma pos_ok_get m l i : pos_ok m -> aget Z.eqb l m = Some i -> pinfo_ok i.
Proof.
  intros [_ F] E. apply aget_In in E; auto. rewrite In_Forall_snd in F. eauto.
Qed.
Lemma pos_at_ok s p l i : sym_ok s -> pos_at s p l = Some i -> pinfo_ok i.
Proof.
  unfold pos_at. intros Hs. destruct (node_at s p) as [n|] eqn:En; [|discriminate].
  intros E. eapply pos_ok_get; [|exact E]. apply sym_ok_pos. eapply node_at_ok; eauto.
Qed.

Lemma pos_at_merge d s p l : sym_ok d -> sym_ok s ->
  pos_at (merge d s) p l =
  match pos_at d p l, pos_at s p l with
  | a, None => a
  | None, Some b => Some (pinfo_add pinfo0 b)
  | Some a, Some b => Some (pinfo_add a b)
  end.
Proof.
  intros Hd Hs. unfold pos_at. rewrite node_at_merge by assumption.
  destruct (node_at d p) as [a|] eqn:Ed; destruct (node_at s p) as [b|] eqn:Es; try reflexivity.
  - rewrite merge_eq. cbn [s_pos].
    rewrite pget_add by (apply sym_ok_pos; eauto using node_at_ok). unfold pget.
    destruct (aget Z.eqb l (s_pos a)), (aget Z.eqb l (s_pos b)); reflexivity.
  - destruct (aget Z.eqb l (s_pos a)); reflexivity.
  - rewrite merge_eq. cbn [s_pos].
    rewrite pget_add by (apply sym_ok_pos; eauto using node_at_ok). unfold pget.
    destruct (aget Z.eqb l (s_pos b)); reflexivity.
Qed.

Theorem merge_pointwise d s : sym_ok d -> sym_ok s ->
  forall p l t,
    has_node (merge d s) p = has_node d p || has_node s p /\
    total_at (merge d s) p = (total_at d p + total_at s p) mod 2 ^ 64 /\
    head_at (merge d s) p = (head_at d p + head_at s p) mod 2 ^ 64 /\
    has_pos (merge d s) p l = has_pos d p l || has_pos s p l /\
    count_at (merge d s) p l = (count_at d p l + count_at s p l) mod 2 ^ 64 /\
    ninst_at (merge d s) p l = (ninst_at d p l + ninst_at s p l) mod 2 ^ 64 /\
    has_target (merge d s) p l t = has_target d p l t || has_target s p l t /\
    target_at (merge d s) p l t = (target_at d p l t + target_at s p l t) mod 2 ^ 64.
Proof.
  intros Hd Hs p l t.
  assert (Hn : has_node (merge d s) p = has_node d p || has_node s p /\
    total_at (merge d s) p = (total_at d p + total_at s p) mod 2 ^ 64 /\
    head_at (merge d s) p = (head_at d p + head_at s p) mod 2 ^ 64).
  { unfold has_node, total_at, head_at. rewrite node_at_merge by assumption.
    destruct (node_at d p) as [a|] eqn:Ed; destruct (node_at s p) as [b|] eqn:Es;
      try rewrite merge_eq; cbn [s_total s_head orb sym0]; repeat split.
    all: try reflexivity.
    - rewrite Z.add_0_r. symmetry. apply u64_id, sym_ok_total. eauto using node_at_ok.
    - rewrite Z.add_0_r. symmetry. apply u64_id, sym_ok_head. eauto using node_at_ok. }
  destruct Hn as (N1 & N2 & N3).
  split; [exact N1|split; [exact N2|split; [exact N3|]]].
  unfold has_pos, count_at, ninst_at, has_target, target_at.
  rewrite pos_at_merge by assumption.
  destruct (pos_at d p l) as [a|] eqn:Ed; destruct (pos_at s p l) as [b|] eqn:Es.
  - destruct (pos_at_ok _ _ _ _ Hd Ed) as (A1 & A2 & A3).
    destruct (pos_at_ok _ _ _ _ Hs Es) as (B1 & B2 & B3).
    cbn [orb pinfo_add p_count p_ninst p_targets]. repeat split.
    + exact (aget_targets_add t _ _ (proj1 B3)).
    + apply tget_add; assumption.
  - destruct (pos_at_ok _ _ _ _ Hd Ed) as (A1 & A2 & A3).
    rewrite !Z.add_0_r, orb_false_r. repeat split.
    + symmetry; apply u64_id; assumption.
    + symmetry; apply u64_id; assumption.
    + rewrite orb_false_r. reflexivity.
    + symmetry. apply u64_id. unfold tget. destruct (aget name_eqb t (p_targets a)) eqn:E; auto.
      apply aget_In in E; auto. destruct A3 as [_ F]. rewrite In_Forall_snd in F. eauto.
  - destruct (pos_at_ok _ _ _ _ Hs Es) as (B1 & B2 & B3).
    cbn [orb pinfo_add p_count p_ninst p_targets pinfo0]. repeat split.
    + exact (aget_targets_add t [] _ (proj1 B3)).
    + apply (tget_add t []); [split; constructor|assumption].
  - cbn. repeat split.
Qed.

(** Order independence. *)
Lemma same_refl a : same_profile a a.
Proof. repeat split. Qed.
Lemma same_trans a b c : same_profile a b -> same_profile b c -> same_profile a c.
Proof.
  intros H G p l t. specialize (H p l t). specialize (G p l t).
  decompose [and] H; decompose [and] G. repeat split; congruence.
Qed.
Lemma same_merge_cong d d' s :
  sym_ok d -> sym_ok d' -> sym_ok s -> same_profile d d' -> same_profile (merge d s) (merge d' s).
Proof.
  intros Hd Hd' Hs H p l t.
  destruct (merge_pointwise d s Hd Hs p l t) as (A1 & A2 & A3 & A4 & A5 & A6 & A7 & A8).
  destruct (merge_pointwise d' s Hd' Hs p l t) as (B1 & B2 & B3 & B4 & B5 & B6 & B7 & B8).
  destruct (H p l t) as (C1 & C2 & C3 & C4 & C5 & C6 & C7 & C8).
  rewrite A1, A2, A3, A4, A5, A6, A7, A8, B1, B2, B3, B4, B5, B6, B7, B8,
    C1, C2, C3, C4, C5, C6, C7, C8. repeat split.
Qed.
Lemma mod_swap m x y z : 0 < m -> ((x + y) mod m + z) mod m = ((x + z) mod m + y) mod m.
Proof. intros. rewrite !Zplus_mod_idemp_l. f_equal. lia. Qed.
Lemma same_merge_swap d a b :
  sym_ok d -> sym_ok a -> sym_ok b -> same_profile (merge (merge d a) b) (merge (merge d b) a).
Proof.
  intros Hd Ha Hb p l t.
  destruct (merge_pointwise d a Hd Ha p l t) as (A1 & A2 & A3 & A4 & A5 & A6 & A7 & A8).
  destruct (merge_pointwise d b Hd Hb p l t) as (B1 & B2 & B3 & B4 & B5 & B6 & B7 & B8).
  destruct (merge_pointwise _ b (merge_ok _ Ha _ Hd) Hb p l t) as (C1 & C2 & C3 & C4 & C5 & C6 & C7 & C8).
  destruct (merge_pointwise _ a (merge_ok _ Hb _ Hd) Ha p l t) as (D1 & D2 & D3 & D4 & D5 & D6 & D7 & D8).
  rewrite C1, C2, C3, C4, C5, C6, C7, C8, D1, D2, D3, D4, D5, D6, D7, D8,
    A1, A2, A3, A4, A5, A6, A7, A8, B1, B2, B3, B4, B5, B6, B7, B8.
  repeat split; try (apply mod_swap; lia);
    rewrite <- !orb_assoc; f_equal; apply orb_comm.
Qed.

Lemma merge_list_ok l : Forall sym_ok l -> forall d, sym_ok d -> sym_ok (fold_left merge l d).
Proof.
  induction 1 as [|s l Hs Hl IH]; intros d Hd; cbn [fold_left]; auto using merge_ok.
Qed.
Lemma merge_list_cong l : Forall sym_ok l -> forall d d', sym_ok d -> sym_ok d' ->
  same_profile d d' -> same_profile (fold_left merge l d) (fold_left merge l d').
Proof.
  induction 1 as [|s l Hs Hl IH]; intros d d' Hd Hd' H; cbn [fold_left]; auto.
  apply IH; auto using merge_ok, same_merge_cong.
Qed.
Theorem merge_perm l l' : Permutation l l' -> Forall sym_ok l -> forall d, sym_ok d ->
  same_profile (fold_left merge l d) (fold_left merge l' d).
Proof.
  induction 1 as [|s l l' Hp IH|s1 s2 l|l1 l2 l3 P1 IH1 P2 IH2]; intros Hok d Hd; cbn [fold_left].
  - apply same_refl.
  - inversion Hok; subst. apply IH; auto using merge_ok.
  - inversion Hok as [|? ? H1 H2]; subst. inversion H2; subst.
    apply merge_list_cong; auto using merge_ok, same_merge_swap.
  - apply same_trans with (fold_left merge l2 d); auto.
    apply IH2; auto. eapply Permutation_Forall; eauto.
Qed.

(** Well-formedness of concrete profiles (for examples). *)
Ltac sym_ok_tac :=
  repeat match goal with
  | |- sym_ok sym0 => apply sym0_ok
  | |- sym_ok (Sym _ _ _ _ _) => constructor
  | |- sym_ok ?x => unfold x
  | |- is_u64 _ => cbn; unfold is_u64; lia
  | |- pos_ok _ => split
  | |- targets_ok _ => split
  | |- pinfo_ok _ => unfold pinfo_ok; cbn [p_count p_ninst p_targets]; split; [|split]
  | |- Forall _ _ => constructor
  | |- pinfo_ok _ => cbn [snd]
  | |- NoDup _ => cbn [akeys map fst]; constructor
  | |- ~ In _ _ => let H := fresh in cbn [In]; intros H; intuition discriminate
  | |- forall k c, In (k, c) _ -> _ =>
      let H := fresh in intros ? ? H; cbn [In] in H;
      repeat (destruct H as [H|H]; [injection H; intros; subst; clear H|]); try (destruct H)
  end.
