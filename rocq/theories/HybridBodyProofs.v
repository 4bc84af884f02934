(** Turning the inlined callees of one node into calls. *)
From Verif Require Import Base AssocFold SymbolModel SymbolSpec SymbolProofs AttribProofs AfdoModel AfdoReadProofs
  FlattenModel FlattenSpec FlattenPureProofs FlattenMapProofs FlattenAllProofs HybridModel HybridSpec HybridViewProofs.

Lemma flatten_site_get loc g h pos l : aget Z.eqb l (flatten_site loc g h pos) =
  if l =? loc then Some (PInfo (Z.max (p_count (pget loc pos)) h) (p_ninst (pget loc pos))
                               (aset name_eqb g (add64 (tget g (p_targets (pget loc pos))) h) (p_targets (pget loc pos))))
  else aget Z.eqb l pos.
Proof. unfold flatten_site. apply aget_aset. apply Z.eqb_spec. Qed.

Lemma aset_targets_ok g v ts : targets_ok ts -> is_u64 v -> targets_ok (aset name_eqb g v ts).
Proof.
  intros [N F] H. split; [apply NoDup_akeys_aset; [apply name_eqb_spec|exact N]|]. apply Forall_forall. intros [k w] Ik.
  apply (aget_NoDup_In name_eqb name_eqb_spec) in Ik; [|apply NoDup_akeys_aset; [apply name_eqb_spec|exact N]]. rewrite (aget_aset name_eqb name_eqb_spec) in Ik. cbn [snd].
  destruct (name_eqb k g); [congruence|]. apply aget_In in Ik; [|apply name_eqb_spec]. rewrite Forall_forall in F. exact (F _ Ik).
Qed.
Lemma pget_ok l pos : pos_ok pos -> pinfo_ok (pget l pos).
Proof. intros P. unfold pget. destruct (aget Z.eqb l pos) eqn:E; [exact (pos_ok_get _ _ _ P E)|exact pinfo0_ok]. Qed.
Lemma flatten_site_ok loc g h pos : pos_ok pos -> is_u64 h -> pos_ok (flatten_site loc g h pos).
Proof.
  intros P H. pose proof (pget_ok loc pos P) as (C & N & T). assert (ND : NoDup (akeys (flatten_site loc g h pos))) by (apply NoDup_akeys_aset; [apply Z.eqb_spec|apply P]).
  split; [exact ND|]. apply Forall_forall. intros [l i] Il. apply (aget_NoDup_In Z.eqb Z.eqb_spec _ _ _ ND) in Il. rewrite flatten_site_get in Il. cbn [snd].
  destruct (l =? loc); [|exact (pos_ok_get _ _ _ P Il)]. assert (i = PInfo (Z.max (p_count (pget loc pos)) h) (p_ninst (pget loc pos))
                               (aset name_eqb g (add64 (tget g (p_targets (pget loc pos))) h) (p_targets (pget loc pos)))) as -> by congruence.
  split; cbn [p_count p_ninst p_targets]; [unfold is_u64 in *; lia|]. split; [exact N|]. apply aset_targets_ok; [exact T|apply add64_range].
Qed.
Lemma flatten_sites_ok L : forall pos, pos_ok pos -> (forall kc, In kc L -> is_u64 (s_head (snd kc))) -> pos_ok (flatten_sites L pos).
Proof.
  unfold flatten_sites. induction L as [|kc L IH]; intros pos P H; cbn [fold_left]; [exact P|]. apply IH; [|intros x Hx; apply H; right; exact Hx].
  apply flatten_site_ok; [exact P|]. apply H. left. reflexivity.
Qed.

Definition there_obs (l : Z) (pos : list (Z * pinfo)) : bool := match aget Z.eqb l pos with Some _ => true | None => false end.
Definition tthere_obs (l : Z) (t : name) (pos : list (Z * pinfo)) : bool :=
  match aget Z.eqb l pos with Some i => match aget name_eqb t (p_targets i) with Some _ => true | None => false end | None => false end.

Lemma pget_count l pos : p_count (pget l pos) = count_obs l pos.
Proof. unfold pget, count_obs. destruct (aget Z.eqb l pos); reflexivity. Qed.
Lemma pget_ninst l pos : p_ninst (pget l pos) = inst_obs l pos.
Proof. unfold pget, inst_obs. destruct (aget Z.eqb l pos); reflexivity. Qed.
Lemma pget_target l t pos : tget t (p_targets (pget l pos)) = target_obs l t pos.
Proof. unfold pget, target_obs, tget. destruct (aget Z.eqb l pos); reflexivity. Qed.
Lemma pget_tthere l t pos : (match aget name_eqb t (p_targets (pget l pos)) with Some _ => true | None => false end) = tthere_obs l t pos.
Proof. unfold pget, tthere_obs. destruct (aget Z.eqb l pos); reflexivity. Qed.

Lemma site_inst loc g h pos l : inst_obs l (flatten_site loc g h pos) = inst_obs l pos.
Proof. unfold inst_obs at 1. rewrite flatten_site_get. destruct (Z.eqb_spec l loc) as [->|]; [|reflexivity]. cbn [p_ninst]. apply pget_ninst. Qed.
Lemma site_count loc g h pos l : count_obs l (flatten_site loc g h pos) = if l =? loc then Z.max (count_obs l pos) h else count_obs l pos.
Proof. unfold count_obs at 1. rewrite flatten_site_get. destruct (Z.eqb_spec l loc) as [->|]; [|reflexivity]. cbn [p_count]. rewrite pget_count. reflexivity. Qed.
Lemma site_target loc g h pos l t : eqm (target_obs l t (flatten_site loc g h pos))
  (target_obs l t pos + (if (l =? loc) && name_eqb g t then h else 0)).
Proof.
  unfold target_obs at 1. rewrite flatten_site_get. destruct (Z.eqb_spec l loc) as [->|]; cbn [andb]; [|rewrite Z.add_0_r; apply eqm_refl].
  cbn [p_targets]. rewrite (aget_aset name_eqb name_eqb_spec). destruct (name_eqb_spec t g) as [->|N].
  - destruct (name_eqb_spec g g); [|congruence]. rewrite pget_target. apply eqm_u64.
  - destruct (name_eqb_spec g t); [congruence|]. rewrite Z.add_0_r. fold (tget t (p_targets (pget loc pos))). rewrite pget_target. apply eqm_refl.
Qed.
Lemma site_there loc g h pos l : there_obs l (flatten_site loc g h pos) = (l =? loc) || there_obs l pos.
Proof. unfold there_obs at 1. rewrite flatten_site_get. destruct (Z.eqb_spec l loc) as [->|]; reflexivity. Qed.
Lemma site_tthere loc g h pos l t : tthere_obs l t (flatten_site loc g h pos) = ((l =? loc) && name_eqb g t) || tthere_obs l t pos.
Proof.
  unfold tthere_obs at 1. rewrite flatten_site_get. destruct (Z.eqb_spec l loc) as [->|]; cbn [andb orb]; [|reflexivity]. cbn [p_targets].
  rewrite (aget_aset name_eqb name_eqb_spec). destruct (name_eqb_spec t g) as [->|N]; [destruct (name_eqb_spec g g); [reflexivity|congruence]|].
  destruct (name_eqb_spec g t); [congruence|]. apply pget_tthere.
Qed.

Definition at_line (l : Z) (L : list (callsite * symbol)) := filter (fun kc => fst (fst kc) =? l) L.
Lemma sites_inst l L : forall pos, inst_obs l (flatten_sites L pos) = inst_obs l pos.
Proof. unfold flatten_sites. induction L as [|[[loc g] c] L IH]; intros pos; cbn [fold_left]; [reflexivity|]. rewrite IH. apply site_inst. Qed.
Lemma fold_max_r x L : forall b, fold_right Z.max (Z.max b x) L = Z.max x (fold_right Z.max b L).
Proof. induction L as [|y L IH]; intros b; cbn [fold_right]; [lia|]. rewrite IH. lia. Qed.
Lemma sites_count l L : forall pos, count_obs l (flatten_sites L pos) = fold_right Z.max (count_obs l pos) (map (fun kc => s_head (snd kc)) (at_line l L)).
Proof.
  unfold flatten_sites, at_line. induction L as [|[[loc g] c] L IH]; intros pos; cbn [fold_left filter fst snd]; [reflexivity|]. rewrite IH, site_count. rewrite (Z.eqb_sym l).
  destruct (loc =? l); [|reflexivity]. cbn [map fold_right fst snd]. apply fold_max_r.
Qed.
Lemma sites_target l t L : forall pos, eqm (target_obs l t (flatten_sites L pos))
  (target_obs l t pos + sumz (fun kc => if name_eqb (snd (fst kc)) t then s_head (snd kc) else 0) (at_line l L)).
Proof.
  unfold flatten_sites, at_line. induction L as [|[[loc g] c] L IH]; intros pos; cbn [fold_left filter fst snd]; [cbn [sumz]; rewrite Z.add_0_r; apply eqm_refl|].
  eapply eqm_trans; [apply IH|]. eapply eqm_trans; [apply eqm_add; [apply site_target|apply eqm_refl]|]. rewrite (Z.eqb_sym l).
  destruct (loc =? l); cbn [andb sumz fst snd]; [rewrite <- Z.add_assoc|rewrite Z.add_0_r]; apply eqm_refl.
Qed.
Lemma sites_there l L : forall pos, there_obs l (flatten_sites L pos) = true <-> there_obs l pos = true \/ at_line l L <> [].
Proof.
  unfold flatten_sites, at_line. induction L as [|[[loc g] c] L IH]; intros pos; cbn [fold_left filter fst snd]; [intuition congruence|]. rewrite IH, site_there, (Z.eqb_sym l).
  destruct (loc =? l); cbn [orb]; [|reflexivity]. split; intros; [right; discriminate|left; reflexivity].
Qed.
Lemma sites_tthere l t L : forall pos, tthere_obs l t (flatten_sites L pos) = true <->
  tthere_obs l t pos = true \/ exists kc, In kc (at_line l L) /\ snd (fst kc) = t.
Proof.
  unfold flatten_sites, at_line. induction L as [|[[loc g] c] L IH]; intros pos; cbn [fold_left filter fst snd].
  - split; [auto|]. intros [H|(x & [] & _)]. exact H.
  - rewrite IH, site_tthere, (Z.eqb_sym l). destruct (loc =? l); cbn [andb orb In]; [|reflexivity].
    rewrite Bool.orb_true_iff. destruct (name_eqb_spec g t) as [E|E].
    + split; intros _; [right; exists (loc, g, c); auto|left; left; reflexivity].
    + split; [intros [[H|H]|(x & H & K)]; [discriminate|left; exact H|right; exists x; auto]|intros [H|(x & [H|H] & K)]; [left; right; exact H|subst x; cbn [fst snd] in K; congruence|right; exists x; auto]].
Qed.

(** The observations in terms of SymbolSpec.v *)
Lemma obs_spec s l t : inst_obs l (s_pos s) = ninst_at s [] l /\ count_obs l (s_pos s) = count_at s [] l /\ target_obs l t (s_pos s) = target_at s [] l t /\
  there_obs l (s_pos s) = has_pos s [] l /\ tthere_obs l t (s_pos s) = has_target s [] l t.
Proof. unfold inst_obs, count_obs, target_obs, there_obs, tthere_obs, ninst_at, count_at, target_at, has_pos, has_target, pos_at. cbn [node_at]. unfold tget. destruct (aget Z.eqb l (s_pos s)); auto. Qed.
