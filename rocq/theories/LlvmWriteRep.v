(** What the traversal of a function adds to an LLVM profile. *)
From Verif Require Import Base AssocFold SymbolModel SymbolSpec SymbolProofs AfdoModel AfdoProofs SrcOffsetModel SrcOffsetProofs FlattenPureProofs HybridSpec LlvmReadModel LlvmWriteModel LlvmWriteSpec LlvmWriteProofs.

Lemma line_disc_loc o : line_disc o = llvm_loc o.
Proof.
  unfold line_disc, llvm_loc, GetLineNumberFromOffset, GetDiscriminatorFromOffset. rewrite land_ffff, land_ffffffff, Z.shiftr_div_pow2 by lia. reflexivity.
Qed.

Lemma sumz_app {A} (f : A -> Z) a b : sumz f (a ++ b) = sumz f a + sumz f b.
Proof. induction a as [|x a IH]; cbn [app sumz]; [lia|]. rewrite IH. lia. Qed.
Lemma sumz_map {A B} (g : A -> B) (f : B -> Z) l : sumz f (map g l) = sumz (fun x => f (g x)) l.
Proof. induction l as [|x l IH]; cbn [map sumz]; [reflexivity|]. rewrite IH. reflexivity. Qed.
Lemma sumz_nonneg {A} (f : A -> Z) l : (forall x, In x l -> 0 <= f x) -> 0 <= sumz f l.
Proof. induction l as [|x l IH]; intros H; cbn [sumz]; [lia|]. pose proof (H x (or_introl eq_refl)). pose proof (IH (fun y Hy => H y (or_intror Hy))). lia. Qed.

(** *** Body records *)
Definition at_l {A} (l : lloc) (es : list (lloc * A)) : list A := map snd (filter (fun e => lloc_eqb (fst e) l) es).
Definition at_t (t : name) (gs : list (name * Z)) : list Z := map snd (filter (fun e => name_eqb (fst e) t) gs).
Notation tot := (sumz (fun x : Z => x)).
Definition brep (es : list (lloc * Z)) (gs : list (lloc * (name * Z))) (b : list (lloc * (Z * list (name * Z)))) : Prop :=
  forall l, match aget lloc_eqb l b with
            | None => at_l l es = [] /\ at_l l gs = []
            | Some r => at_l l es <> [] /\ (fst r = tot (at_l l es) /\ fst r < 2 ^ 64) /\
                forall t, match aget name_eqb t (snd r) with
                          | None => at_t t (at_l l gs) = []
                          | Some v => at_t t (at_l l gs) <> [] /\ v = tot (at_t t (at_l l gs)) /\ v < 2 ^ 64
                          end
            end.
Definition bover (es : list (lloc * Z)) (gs : list (lloc * (name * Z))) : Prop :=
  exists l, 2 ^ 64 <= tot (at_l l es) \/ exists t, 2 ^ 64 <= tot (at_t t (at_l l gs)).
Definition same_but_body (f f' : lfs) : Prop := lf_name f' = lf_name f /\ lf_head f' = lf_head f /\ lf_total f' = lf_total f /\ lf_calls f' = lf_calls f.
Lemma sbb_trans a b c : same_but_body a b -> same_but_body b c -> same_but_body a c.
Proof. unfold same_but_body. intuition congruence. Qed.

Lemma at_l_app {A} l (a b : list (lloc * A)) : at_l l (a ++ b) = at_l l a ++ at_l l b.
Proof. unfold at_l. rewrite filter_app, map_app. reflexivity. Qed.
Lemma at_t_app t a b : at_t t (a ++ b) = at_t t a ++ at_t t b.
Proof. unfold at_t. rewrite filter_app, map_app. reflexivity. Qed.
Lemma at_l_one {A} l l' (x : A) : at_l l [(l', x)] = if lloc_eqb l' l then [x] else [].
Proof. unfold at_l. cbn [filter fst]. destruct (lloc_eqb l' l); reflexivity. Qed.
Lemma at_t_one t t' x : at_t t [(t', x)] = if name_eqb t' t then [x] else [].
Proof. unfold at_t. cbn [filter fst]. destruct (name_eqb t' t); reflexivity. Qed.

Lemma add_body_rep es gs l x f : brep es gs (lf_body f) ->
  match add_body l x f with
  | Ok f' => brep (es ++ [(l, x)]) gs (lf_body f') /\ same_but_body f f'
  | Abort => 2 ^ 64 <= tot (at_l l (es ++ [(l, x)]))
  | UB => False
  end.
Proof.
  destruct f as [n h t b c]. cbn [add_body lf_body]. intros R. unfold body_get, sat_add.
  pose proof (R l) as Rl. rewrite at_l_app, at_l_one, sumz_app. destruct (lloc_eqb_spec l l) as [_|Q]; [|congruence]. cbn [sumz].
  set (r := match aget lloc_eqb l b with Some r => r | None => (0, []) end).
  assert (V : fst r = tot (at_l l es)) by (unfold r; destruct (aget lloc_eqb l b); [apply Rl|rewrite (proj1 Rl); reflexivity]).
  rewrite V. destruct (Z.ltb_spec (tot (at_l l es) + x) (2 ^ 64)) as [LT|GE]; cbn [obind]; [|lia].
  split; [|repeat split]. intros l'. cbn [lf_body]. rewrite (aget_aset lloc_eqb lloc_eqb_spec). destruct (lloc_eqb_spec l' l) as [->|N].
  - rewrite at_l_app, at_l_one. destruct (lloc_eqb_spec l l) as [_|Q]; [|congruence]. split; [destruct (at_l l es); discriminate|]. cbn [fst snd]. split; [rewrite sumz_app; cbn [sumz]; lia|].
    intros t'. unfold r. destruct (aget lloc_eqb l b) as [r0|]; [exact (proj2 (proj2 Rl) t')|]. cbn [snd aget]. rewrite (proj2 Rl). reflexivity.
  - rewrite at_l_app, at_l_one. destruct (lloc_eqb_spec l l') as [Q|_]; [congruence|]. rewrite app_nil_r. exact (R l').
Qed.
Lemma add_target_rep es gs l g x f : brep es gs (lf_body f) -> at_l l es <> [] ->
  match add_target l g x f with
  | Ok f' => brep es (gs ++ [(l, (g, x))]) (lf_body f') /\ same_but_body f f'
  | Abort => 2 ^ 64 <= tot (at_t g (at_l l (gs ++ [(l, (g, x))])))
  | UB => False
  end.
Proof.
  destruct f as [n h t b c]. cbn [add_target lf_body]. intros R NE. unfold body_get, sat_add.
  pose proof (R l) as Rl. rewrite at_l_app, at_l_one. destruct (lloc_eqb_spec l l) as [_|Q]; [|congruence]. rewrite at_t_app, at_t_one, sumz_app. destruct (name_eqb_spec g g) as [_|Q]; [|congruence]. cbn [sumz].
  destruct (aget lloc_eqb l b) as [r|] eqn:AL; [|destruct Rl; congruence]. destruct Rl as (NE' & CE & TE).
  assert (V : tget g (snd r) = tot (at_t g (at_l l gs))) by (unfold tget; specialize (TE g); destruct (aget name_eqb g (snd r)); [apply TE|rewrite TE; reflexivity]).
  rewrite V. destruct (Z.ltb_spec (tot (at_t g (at_l l gs)) + x) (2 ^ 64)) as [LT|GE]; cbn [obind]; [|lia].
  split; [|repeat split]. intros l'. cbn [lf_body]. rewrite (aget_aset lloc_eqb lloc_eqb_spec). destruct (lloc_eqb_spec l' l) as [->|N].
  - split; [exact NE|]. cbn [fst snd]. split; [exact CE|]. intros t'. rewrite (aget_aset name_eqb name_eqb_spec), at_l_app, at_l_one. destruct (lloc_eqb_spec l l) as [_|Q]; [|congruence]. rewrite at_t_app, at_t_one.
    destruct (name_eqb_spec t' g) as [->|N'].
    + destruct (name_eqb_spec g g) as [_|Q]; [|congruence]. split; [destruct (at_t g (at_l l gs)); discriminate|]. rewrite sumz_app. cbn [sumz]. lia.
    + destruct (name_eqb_spec g t') as [Q|_]; [congruence|]. rewrite app_nil_r. exact (TE t').
  - rewrite at_l_app, at_l_one. destruct (lloc_eqb_spec l l') as [Q|_]; [congruence|]. rewrite app_nil_r. exact (R l').
Qed.
Lemma at_l_nonneg {A} (P : A -> Prop) l es : Forall (fun e => P (snd e)) es -> Forall P (at_l l es).
Proof. unfold at_l. induction 1 as [|e es H _ IH]; cbn [filter]; [constructor|]. destruct (lloc_eqb (fst e) l); [constructor; [exact H|exact IH]|exact IH]. Qed.
Lemma tot_nonneg l : Forall (fun x => 0 <= x) l -> 0 <= tot l.
Proof. rewrite Forall_forall. intros H. apply sumz_nonneg. exact H. Qed.
Lemma at_t_nonneg t gs : Forall (fun e => 0 <= snd e) gs -> 0 <= tot (at_t t gs).
Proof. intros H. apply tot_nonneg. unfold at_t. induction H as [|e es H _ IH]; cbn [filter]; [constructor|]. destruct (name_eqb (fst e) t); [constructor; [exact H|exact IH]|exact IH]. Qed.

Definition ges (pos : list (Z * pinfo)) : list (lloc * Z) := map (fun e => (line_disc (fst e), p_count (snd e))) pos.
Definition ggs (pos : list (Z * pinfo)) : list (lloc * (name * Z)) := flat_map (fun e => map (fun tx => (line_disc (fst e), tx)) (p_targets (snd e))) pos.
Definition pos_pos (pos : list (Z * pinfo)) : Prop := Forall (fun e => 0 <= p_count (snd e) /\ Forall (fun tx => 0 <= snd tx) (p_targets (snd e))) pos.
Lemma pos_ok_pos pos : pos_ok pos -> pos_pos pos.
Proof.
  intros [_ H]. unfold pos_pos. eapply Forall_impl; [|exact H]. intros e ([] & _ & (_ & T)). split; [assumption|]. eapply Forall_impl; [|exact T]. intros a []. assumption.
Qed.
Lemma ges_pos pos : pos_pos pos -> Forall (fun e => 0 <= snd e) (ges pos).
Proof. unfold pos_pos, ges. induction 1 as [|e es [H _] _ IH]; cbn [map]; constructor; [exact H|exact IH]. Qed.
Lemma ggs_pos pos : pos_pos pos -> Forall (fun e => 0 <= snd (snd e)) (ggs pos).
Proof.
  unfold pos_pos, ggs. induction 1 as [|e es [_ H] _ IH]; cbn [flat_map]; [constructor|]. apply Forall_app. split; [|exact IH]. clear IH. induction H; cbn [map]; constructor; [assumption|assumption].
Qed.
Lemma bover_mono es gs es' gs' : Forall (fun e => 0 <= snd e) es' -> Forall (fun e => 0 <= snd (snd e)) gs' -> bover es gs -> bover (es ++ es') (gs ++ gs').
Proof.
  intros E G (l & [H|(t & H)]); exists l.
  - left. rewrite at_l_app, sumz_app. pose proof (tot_nonneg _ (at_l_nonneg (fun x => 0 <= x) l es' E)). lia.
  - right. exists t. rewrite at_l_app, at_t_app, sumz_app. pose proof (at_t_nonneg t _ (at_l_nonneg (fun x => 0 <= snd x) l gs' G)). lia.
Qed.
Lemma visit_targets_rep es l ts : Forall (fun tx => 0 <= snd tx) ts -> at_l l es <> [] -> forall gs f, brep es gs (lf_body f) ->
  match visit_targets l ts f with
  | Ok f' => brep es (gs ++ map (fun tx => (l, tx)) ts) (lf_body f') /\ same_but_body f f'
  | Abort => bover es (gs ++ map (fun tx => (l, tx)) ts)
  | UB => False
  end.
Proof.
  intros P NE. induction ts as [|[t x] ts IH]; intros gs f R; cbn [visit_targets map].
  - rewrite app_nil_r. split; [exact R|repeat split].
  - inversion P as [|? ? P1 P2]; subst. pose proof (add_target_rep es gs l t x f R NE) as A. destruct (add_target l t x f) as [f1| |]; cbn [obind]; [| |exact A].
    + destruct A as (A1 & A2). specialize (IH P2 _ f1 A1). rewrite <- app_assoc in IH. cbn [app] in IH. destruct (visit_targets l ts f1) as [f2| |]; [|exact IH|exact IH]. destruct IH as (B1 & B2). split; [exact B1|exact (sbb_trans _ _ _ A2 B2)].
    + change ((l, (t, x)) :: map (fun tx => (l, tx)) ts) with ([(l, (t, x))] ++ map (fun tx => (l, tx)) ts). rewrite app_assoc. rewrite <- (app_nil_r es). apply bover_mono; [constructor| |].
      * clear -P2. induction P2; cbn [map]; constructor; assumption.
      * exists l. right. exists t. exact A.
Qed.
Lemma visit_body_rep pos : pos_pos pos -> forall es gs f, brep es gs (lf_body f) ->
  match visit_body pos f with
  | Ok f' => brep (es ++ ges pos) (gs ++ ggs pos) (lf_body f') /\ same_but_body f f'
  | Abort => bover (es ++ ges pos) (gs ++ ggs pos)
  | UB => False
  end.
Proof.
  induction pos as [|[o i] pos IH]; intros P es gs f R; cbn [visit_body].
  - unfold ges, ggs. cbn [map flat_map]. rewrite !app_nil_r. split; [exact R|repeat split].
  - inversion P as [|? ? [P1 P1'] P2]; subst. cbn [snd] in *.
    assert (GE : es ++ ges ((o, i) :: pos) = (es ++ [(line_disc o, p_count i)]) ++ ges pos) by (rewrite <- app_assoc; reflexivity).
    assert (GG : gs ++ ggs ((o, i) :: pos) = (gs ++ map (fun tx => (line_disc o, tx)) (p_targets i)) ++ ggs pos) by (rewrite <- app_assoc; reflexivity).
    rewrite GE, GG. clear GE GG.
    pose proof (add_body_rep es gs (line_disc o) (p_count i) f R) as A. destruct (add_body _ _ f) as [f1| |]; cbn [obind]; [| |exact A].
    + destruct A as (A1 & A2). assert (NE : at_l (line_disc o) (es ++ [(line_disc o, p_count i)]) <> []) by (rewrite at_l_app, at_l_one; destruct (lloc_eqb_spec (line_disc o) (line_disc o)) as [_|Q]; [|congruence]; destruct (at_l _ es); discriminate).
      pose proof (visit_targets_rep _ (line_disc o) (p_targets i) P1' NE gs f1 A1) as B. destruct (visit_targets _ _ f1) as [f2| |]; cbn [obind]; [| |exact B].
      * destruct B as (B1 & B2). specialize (IH P2 _ _ f2 B1). destruct (visit_body pos f2) as [f3| |]; [|exact IH|exact IH]. destruct IH as (C1 & C2). split; [exact C1|exact (sbb_trans _ _ _ A2 (sbb_trans _ _ _ B2 C2))].
      * apply bover_mono; [apply ges_pos; exact P2|apply ggs_pos; exact P2|exact B].
    + apply bover_mono; [apply ges_pos; exact P2|apply ggs_pos; exact P2|]. exists (line_disc o). left. exact A.
Qed.

(** *** The nodes merged into one *)
Definition at1 (k : lkey) (ns : list symbol) : list symbol :=
  flat_map (fun s => flat_map (fun kc => if lkey_eqb (line_disc (fst (fst kc)), snd (fst kc)) k then [snd kc] else []) (s_calls s)) ns.
Fixpoint atq (q : list lkey) (ns : list symbol) : list symbol := match q with [] => ns | k :: q' => atq q' (at1 k ns) end.
Definition nes (ns : list symbol) := flat_map (fun s => ges (s_pos s)) ns.
Definition ngs (ns : list symbol) := flat_map (fun s => ggs (s_pos s)) ns.
Definition nodeok (ns : list symbol) (f : lfs) : Prop := (lf_total f = sumz s_total ns /\ lf_total f < 2 ^ 64) /\ brep (nes ns) (ngs ns) (lf_body f).
Inductive rep : list symbol -> lfs -> Prop :=
| rep_intro ns f : nodeok ns f -> (forall k, fchild k f = None -> at1 k ns = []) ->
    (forall k c, fchild k f = Some c -> at1 k ns <> [] /\ lf_name c = snd k /\ lf_head c = 0) ->
    (forall k c, fchild k f = Some c -> rep (at1 k ns) c) -> rep ns f.
Definition nover (ns : list symbol) : Prop := exists q, 2 ^ 64 <= sumz s_total (atq q ns) \/ bover (nes (atq q ns)) (ngs (atq q ns)).

Lemma at1_app k a b : at1 k (a ++ b) = at1 k a ++ at1 k b.
Proof. unfold at1. apply flat_map_app. Qed.
Lemma atq_app q : forall a b, atq q (a ++ b) = atq q a ++ atq q b.
Proof. induction q as [|k q IH]; intros a b; cbn [atq]; [reflexivity|]. rewrite at1_app. apply IH. Qed.
Lemma nes_app a b : nes (a ++ b) = nes a ++ nes b. Proof. apply flat_map_app. Qed.
Lemma ngs_app a b : ngs (a ++ b) = ngs a ++ ngs b. Proof. apply flat_map_app. Qed.
Lemma sym_ok_calls s : sym_ok s -> forall k c, In (k, c) (s_calls s) -> sym_ok c.
Proof. intros OK. inversion OK; subst. assumption. Qed.
Lemma sym_ok_pos s : sym_ok s -> pos_pos (s_pos s).
Proof. intros OK. inversion OK; subst. apply pos_ok_pos. assumption. Qed.
Lemma sym_ok_total s : sym_ok s -> 0 <= s_total s.
Proof. intros OK. inversion OK; subst. cbn [s_total]. unfold is_u64 in *. lia. Qed.
Lemma at1_ok k ns : Forall sym_ok ns -> Forall sym_ok (at1 k ns).
Proof.
  unfold at1. induction 1 as [|s ns OK _ IH]; cbn [flat_map]; [constructor|]. apply Forall_app. split; [|exact IH]. clear IH. pose proof (sym_ok_calls s OK) as C. induction (s_calls s) as [|[k' c] cs IH]; cbn [flat_map]; [constructor|]. apply Forall_app. split.
  - cbn [fst snd]. destruct (lkey_eqb _ k); constructor; [|constructor]. exact (C k' c (or_introl eq_refl)).
  - apply IH. intros k0 c0 H. exact (C k0 c0 (or_intror H)).
Qed.
Lemma atq_ok q : forall ns, Forall sym_ok ns -> Forall sym_ok (atq q ns).
Proof. induction q as [|k q IH]; intros ns H; cbn [atq]; [exact H|]. apply IH, at1_ok, H. Qed.
Lemma nes_pos ns : Forall sym_ok ns -> Forall (fun e => 0 <= snd e) (nes ns).
Proof. unfold nes. induction 1 as [|s ns OK _ IH]; cbn [flat_map]; [constructor|]. apply Forall_app. split; [apply ges_pos, sym_ok_pos, OK|exact IH]. Qed.
Lemma ngs_pos ns : Forall sym_ok ns -> Forall (fun e => 0 <= snd (snd e)) (ngs ns).
Proof. unfold ngs. induction 1 as [|s ns OK _ IH]; cbn [flat_map]; [constructor|]. apply Forall_app. split; [apply ggs_pos, sym_ok_pos, OK|exact IH]. Qed.
Lemma totals_pos ns : Forall sym_ok ns -> 0 <= sumz s_total ns.
Proof. rewrite Forall_forall. intros H. apply sumz_nonneg. intros s Hs. apply sym_ok_total, H, Hs. Qed.

(** more inlined calls in the last node only make the sums larger *)
Lemma nover_calls ns h t ts pos cs1 cs2 : Forall sym_ok (map snd cs2) -> nover (ns ++ [Sym h t ts pos cs1]) -> nover (ns ++ [Sym h t ts pos (cs1 ++ cs2)]).
Proof.
  intros OK (q & H). exists q. destruct q as [|k q]; cbn [atq] in *.
  - rewrite !sumz_app, !nes_app, !ngs_app in *. exact H.
  - rewrite !at1_app, !atq_app in *. assert (X : at1 k [Sym h t ts pos (cs1 ++ cs2)] = at1 k [Sym h t ts pos cs1] ++ at1 k [Sym h t ts pos cs2]) by (unfold at1; cbn [flat_map s_calls]; rewrite !app_nil_r; apply flat_map_app). rewrite X, atq_app, app_assoc. clear X.
    assert (OK2 : Forall sym_ok (atq q (at1 k [Sym h t ts pos cs2]))).
    { apply atq_ok. unfold at1. cbn [flat_map s_calls]. rewrite app_nil_r. clear -OK. induction cs2 as [|[k' c] cs IH]; cbn [flat_map map] in *; [constructor|]. inversion OK; subst. apply Forall_app. split; [|apply IH; assumption]. destruct (lkey_eqb _ k); constructor; [assumption|constructor]. }
    destruct H as [H|H]; [left; rewrite sumz_app in H; rewrite !sumz_app; pose proof (totals_pos _ OK2); lia|right]. rewrite nes_app, ngs_app. apply bover_mono; [apply nes_pos, OK2|apply ngs_pos, OK2|exact H].
Qed.
Lemma nover_nil_calls ns h t ts pos cs : Forall sym_ok (map snd cs) -> nover (ns ++ [Sym h t ts pos []]) -> nover (ns ++ [Sym h t ts pos cs]).
Proof. intros OK H. exact (nover_calls ns h t ts pos [] cs OK H). Qed.

Lemma rep_nil : rep [] lfs0.
Proof.
  constructor.
  - split; [split; reflexivity|]. intros l. cbn [lf_body lfs0 aget]. split; reflexivity.
  - reflexivity.
  - intros k c H. discriminate.
  - intros k c H. discriminate.
Qed.
Lemma rep_name ns f n h : rep ns f -> rep ns (match f with LFS _ _ t b c => LFS n h t b c end).
Proof. intros R. inversion R as [? ? NO N1 N2 N3]; subst. destruct f as [n0 h0 t0 b0 c0]. constructor; [exact NO|exact N1|exact N2|exact N3]. Qed.

(** the callees a traversal asks the name table for *)
Fixpoint callees (s : symbol) : list name := match s with Sym _ _ _ _ cs => flat_map (fun kc => snd (fst kc) :: callees (snd kc)) cs end.
Definition known (table : list name) (s : symbol) : Prop := forall n, In n (callees s) -> n <> [] /\ In n table.
Lemma getname_ok table n : n <> [] -> In n table -> (let! c := checked_name n in GetNameRef table c) = Ok n.
Proof.
  intros NE HI. destruct n as [|x n]; [congruence|]. cbn [checked_name obind]. unfold GetNameRef. cbn [checked_name obind].
  replace (existsb (name_eqb (x :: n)) table) with true; [reflexivity|]. symmetry. apply existsb_exists. exists (x :: n). split; [exact HI|]. destruct (name_eqb_spec (x :: n) (x :: n)); congruence.
Qed.

Definition grown (ns : list symbol) (s : symbol) (f : lfs) (r : outcome lfs) : Prop :=
  match r with
  | Ok f' => rep (ns ++ [s]) f' /\ lf_name f' = lf_name f /\ lf_head f' = lf_head f
  | Abort => nover (ns ++ [s])
  | UB => False
  end.
Lemma fold_sbb_child f f' : same_but_body f f' -> forall k, fchild k f' = fchild k f.
Proof. intros (_ & _ & _ & C) k. unfold fchild. rewrite C. reflexivity. Qed.

Lemma at1_last_ok k ns h t ts pos cs : Forall sym_ok ns -> Forall sym_ok (map snd cs) -> Forall sym_ok (at1 k (ns ++ [Sym h t ts pos cs])).
Proof.
  intros ON OC. rewrite at1_app. apply Forall_app. split; [apply at1_ok, ON|]. unfold at1. cbn [flat_map s_calls]. rewrite app_nil_r. induction cs as [|[k' c] cs IH]; cbn [flat_map map] in *; [constructor|]. inversion OC; subst. apply Forall_app. split; [|apply IH; assumption]. destruct (lkey_eqb _ k); constructor; [assumption|constructor].
Qed.
Lemma at1_last k ns h t ts pos cs kc c : at1 k (ns ++ [Sym h t ts pos (cs ++ [(kc, c)])]) = at1 k (ns ++ [Sym h t ts pos cs]) ++ (if lkey_eqb (line_disc (fst kc), snd kc) k then [c] else []).
Proof.
  rewrite !at1_app, <- app_assoc. f_equal. unfold at1. cbn [flat_map s_calls]. rewrite !app_nil_r, flat_map_app. cbn [flat_map fst snd]. rewrite app_nil_r. reflexivity.
Qed.
Lemma nodeok_calls ns h t ts pos cs cs' f : nodeok (ns ++ [Sym h t ts pos cs]) f -> nodeok (ns ++ [Sym h t ts pos cs']) f.
Proof. unfold nodeok. rewrite !sumz_app, !nes_app, !ngs_app. exact (fun x => x). Qed.

Section Walk.
Context (table : list name).
Lemma wr_calls_rep level h t ts pos cs :
  (forall k c, In (k, c) cs -> sym_ok c /\ snd k <> [] /\ In (snd k) table) ->
  (forall k c, In (k, c) cs -> forall ns f, Forall sym_ok ns -> rep ns f -> grown ns c f (wr table level c f)) ->
  forall ns cs0 f, Forall sym_ok ns -> Forall sym_ok (map snd cs0) -> rep (ns ++ [Sym h t ts pos cs0]) f ->
  match wr_calls table level cs f with
  | Ok f' => rep (ns ++ [Sym h t ts pos (cs0 ++ cs)]) f' /\ lf_name f' = lf_name f /\ lf_head f' = lf_head f /\ lf_total f' = lf_total f
  | Abort => nover (ns ++ [Sym h t ts pos (cs0 ++ cs)])
  | UB => False
  end.
Proof.
  induction cs as [|[k c] cs IHc]; intros OK IH ns cs0 f ON OC R; cbn [wr_calls].
  - rewrite app_nil_r. split; [exact R|]. repeat split.
  - destruct (OK k c (or_introl eq_refl)) as (OKc & NE & IT). pose proof (getname_ok table (snd k) NE IT) as GN.
    destruct k as [o g]. cbn [fst snd] in *. set (k := (o, g)). destruct (checked_name g) as [n| |]; [|discriminate|discriminate]. cbn [obind] in GN. cbn [obind]. rewrite GN. cbn [obind]. clear n GN.
    pose (key := ((line_disc o, g) : lkey)). match goal with |- context [wr table level c (child_or_new ?x f)] => change x with key end. match goal with |- context [set_child ?x _ f] => change x with key end.
    pose proof (at1_last_ok key ns h t ts pos cs0 ON OC) as OM. inversion R as [? ? NO N1 N2 N3]; subst.
    assert (R0 : rep (at1 key (ns ++ [Sym h t ts pos cs0])) (child_or_new key f)).
    { unfold child_or_new. destruct (fchild key f) as [c0|] eqn:FC; [pose proof (rep_name _ _ (snd key) (lf_head c0) (N3 _ _ FC)) as X; destruct c0; exact X|]. rewrite (N1 _ FC). apply (rep_name _ _ (snd key) 0 rep_nil). }
    assert (HD : lf_head (child_or_new key f) = 0 /\ lf_name (child_or_new key f) = snd key).
    { unfold child_or_new. destruct (fchild key f) as [c0|] eqn:FC; [|split; reflexivity]. destruct (N2 _ _ FC) as (_ & _ & H0). destruct c0. split; [exact H0|reflexivity]. }
    pose proof (IH k c (or_introl eq_refl) _ _ OM R0) as G.
    assert (OC' : Forall sym_ok (map snd (cs0 ++ [(k, c)]))) by (rewrite map_app; apply Forall_app; split; [exact OC|constructor; [exact OKc|constructor]]).
    assert (OC2 : Forall sym_ok (map snd cs)) by (apply Forall_forall; intros x Hx; apply in_map_iff in Hx; destruct Hx as ([k1 c1] & <- & HI); exact (proj1 (OK k1 c1 (or_intror HI)))).
    assert (EC : cs0 ++ (k, c) :: cs = (cs0 ++ [(k, c)]) ++ cs) by (rewrite <- app_assoc; reflexivity). rewrite EC.
    destruct (wr table level c (child_or_new key f)) as [c'| |]; cbn [obind grown] in *; [| |exact G].
    + destruct G as (G1 & G2 & G3).
      assert (R1 : rep (ns ++ [Sym h t ts pos (cs0 ++ [(k, c)])]) (set_child key c' f)).
      { constructor.
        - apply (nodeok_calls _ _ _ _ _ cs0). destruct f; exact NO.
        - intros k1. rewrite fchild_set, at1_last. change (line_disc (fst k), snd k) with key. destruct (lkey_eqb_spec k1 key) as [->|N]; [discriminate|]. intros FC. rewrite (N1 _ FC). destruct (lkey_eqb_spec key k1); [congruence|reflexivity].
        - intros k1 c1. rewrite fchild_set, at1_last. change (line_disc (fst k), snd k) with key. destruct (lkey_eqb_spec k1 key) as [->|N].
          + intros E1. injection E1 as <-. destruct (lkey_eqb_spec key key) as [_|Q]; [|congruence]. split; [destruct (at1 key _); discriminate|]. destruct HD. split; congruence.
          + intros FC. destruct (N2 _ _ FC) as (A1 & A2). destruct (lkey_eqb_spec key k1); [congruence|]. rewrite app_nil_r. split; [exact A1|exact A2].
        - intros k1 c1. rewrite fchild_set, at1_last. change (line_disc (fst k), snd k) with key. destruct (lkey_eqb_spec k1 key) as [->|N].
          + intros E1. injection E1 as <-. destruct (lkey_eqb_spec key key) as [_|Q]; [|congruence]. exact G1.
          + intros FC. destruct (lkey_eqb_spec key k1); [congruence|]. rewrite app_nil_r. exact (N3 _ _ FC). }
      specialize (IHc (fun k1 c1 H1 => OK k1 c1 (or_intror H1)) (fun k1 c1 H1 => IH k1 c1 (or_intror H1)) ns (cs0 ++ [(k, c)]) _ ON OC' R1).
      destruct (wr_calls table level cs (set_child key c' f)) as [f2| |]; [|exact IHc|exact IHc]. destruct IHc as (B1 & B2 & B3 & B4). split; [exact B1|]. destruct f; repeat split; assumption.
    + apply nover_calls; [exact OC2|]. destruct G as (q & G). exists (key :: q). cbn [atq]. rewrite at1_last. change (line_disc (fst k), snd k) with key. destruct (lkey_eqb_spec key key) as [_|Q]; [|congruence]. exact G.
Qed.

Lemma wr_rep s : sym_ok s -> known table s -> forall level ns f, Forall sym_ok ns -> rep ns f -> grown ns s f (wr table (S level) s f).
Proof.
  induction s as [h t ts pos cs IH] using symbol_ind'. intros OS KN level ns f ON R. rewrite wr_eq. unfold visit_node. cbn [Nat.ltb Nat.leb s_calls s_pos s_total].
  inversion OS as [? ? ? ? ? OH OT OP ND OCS]; subst. inversion R as [? ? NO N1 N2 N3]; subst. destruct NO as (TE & BE).
  assert (OC2 : Forall sym_ok (map snd cs)) by (apply Forall_forall; intros x Hx; apply in_map_iff in Hx; destruct Hx as ([k1 c1] & <- & HI); exact (OCS _ _ HI)).
  assert (SB : same_but_body f f) by (repeat split).
  assert (AT : match add_total t f with Ok f1 => (lf_total f1 = lf_total f + t /\ lf_total f1 < 2 ^ 64) /\ lf_name f1 = lf_name f /\ lf_head f1 = lf_head f /\ lf_body f1 = lf_body f /\ lf_calls f1 = lf_calls f | Abort => 2 ^ 64 <= lf_total f + t | UB => False end).
  { destruct f as [n0 h0 t0 b0 c0]. cbn [add_total]. unfold sat_add. destruct (Z.ltb_spec (t0 + t) (2 ^ 64)); cbn [obind]; [repeat split; assumption|assumption]. }
  destruct (add_total t f) as [f1| |]; cbn [obind]; [| |exact AT].
  2: { cbn [grown]. apply nover_nil_calls; [exact OC2|]. exists []. left. cbn [atq]. rewrite sumz_app. cbn [sumz s_total]. lia. }
  destruct AT as (T1 & NM1 & H1 & B1 & C1). pose proof (visit_body_rep pos (pos_ok_pos _ OP) (nes ns) (ngs ns) f1) as VB. rewrite B1 in VB. specialize (VB BE).
  assert (NEQ : nes (ns ++ [Sym h t ts pos []]) = nes ns ++ ges pos) by (rewrite nes_app; unfold nes at 2; cbn [flat_map s_pos]; rewrite app_nil_r; reflexivity).
  assert (NGQ : ngs (ns ++ [Sym h t ts pos []]) = ngs ns ++ ggs pos) by (rewrite ngs_app; unfold ngs at 2; cbn [flat_map s_pos]; rewrite app_nil_r; reflexivity).
  destruct (visit_body pos f1) as [f2| |]; cbn [obind]; [| |exact VB].
  2: { cbn [grown]. apply nover_nil_calls; [exact OC2|]. exists []. right. cbn [atq]. rewrite NEQ, NGQ. exact VB. }
  destruct VB as (V1 & V2 & V3 & V4 & V5).
  assert (A1E : forall k, at1 k (ns ++ [Sym h t ts pos []]) = at1 k ns) by (intros k; rewrite at1_app; unfold at1 at 2; cbn [flat_map s_calls]; apply app_nil_r).
  assert (FE : forall k, fchild k f2 = fchild k f) by (intros k; unfold fchild; congruence).
  assert (R2 : rep (ns ++ [Sym h t ts pos []]) f2).
  { constructor.
    - split; [rewrite sumz_app; cbn [sumz s_total]; split; lia|]. rewrite NEQ, NGQ. exact V1.
    - intros k. rewrite FE, A1E. apply N1.
    - intros k c. rewrite FE, A1E. apply N2.
    - intros k c. rewrite FE, A1E. apply N3. }
  assert (KC : forall k c, In (k, c) cs -> sym_ok c /\ snd k <> [] /\ In (snd k) table).
  { intros k c HI. split; [exact (OCS _ _ HI)|]. apply KN. cbn [callees]. apply in_flat_map. exists (k, c). split; [exact HI|left; reflexivity]. }
  assert (IH' : forall k c, In (k, c) cs -> forall ns f, Forall sym_ok ns -> rep ns f -> grown ns c f (wr table (S (S level)) c f)).
  { intros k c HI ns' f' ON' R'. apply (IH k c HI); [exact (OCS _ _ HI)| |exact ON'|exact R']. intros n Hn. apply KN. cbn [callees]. apply in_flat_map. exists (k, c). split; [exact HI|right; exact Hn]. }
  pose proof (wr_calls_rep (S (S level)) h t ts pos cs KC IH' ns [] f2 ON (Forall_nil _) R2) as W. cbn [app] in W.
  destruct (wr_calls table (S (S level)) cs f2) as [f3| |]; cbn [grown]; [|exact W|exact W]. destruct W as (W1 & W2 & W3 & _). split; [exact W1|]. split; congruence.
Qed.

(** The top level: the total was added by VisitTopSymbol. *)
Lemma wr_top s f : sym_ok s -> known table s -> lf_total f = s_total s -> lf_body f = [] -> lf_calls f = [] ->
  grown [] s f (wr table 0 s f).
Proof.
  destruct s as [h t ts pos cs]. intros OS KN TE BE CE. rewrite wr_eq. unfold visit_node. cbn [Nat.ltb Nat.leb s_calls s_pos s_total obind] in *. revert TE.
  inversion OS as [? ? ? ? ? OH OT OP ND OCS]; subst. intros TE.
  assert (OC2 : Forall sym_ok (map snd cs)) by (apply Forall_forall; intros x Hx; apply in_map_iff in Hx; destruct Hx as ([k1 c1] & <- & HI); exact (OCS _ _ HI)).
  pose proof (visit_body_rep pos (pos_ok_pos _ OP) [] [] f) as VB. rewrite BE in VB. specialize (VB (fun l => conj eq_refl eq_refl)). cbn [app] in VB.
  destruct (visit_body pos f) as [f2| |]; cbn [obind]; [| |exact VB].
  2: { cbn [grown]. apply nover_nil_calls; [exact OC2|]. exists []. right. cbn [atq app]. unfold nes, ngs. cbn [flat_map s_pos]. rewrite !app_nil_r. exact VB. }
  destruct VB as (V1 & V2 & V3 & V4 & V5). rewrite CE in V5.
  assert (R2 : rep ([] ++ [Sym h t ts pos []]) f2).
  { constructor.
    - split; [cbn [app sumz s_total]; unfold is_u64 in OT; split; lia|]. cbn [app]. unfold nes, ngs. cbn [flat_map s_pos]. rewrite !app_nil_r. exact V1.
    - intros k _. reflexivity.
    - intros k c. unfold fchild. rewrite V5. discriminate.
    - intros k c. unfold fchild. rewrite V5. discriminate. }
  assert (KC : forall k c, In (k, c) cs -> sym_ok c /\ snd k <> [] /\ In (snd k) table).
  { intros k c HI. split; [exact (OCS _ _ HI)|]. apply KN. cbn [callees]. apply in_flat_map. exists (k, c). split; [exact HI|left; reflexivity]. }
  assert (IH' : forall k c, In (k, c) cs -> forall ns f, Forall sym_ok ns -> rep ns f -> grown ns c f (wr table 1 c f)).
  { intros k c HI ns' f' ON' R'. apply wr_rep; [exact (OCS _ _ HI)| |exact ON'|exact R']. intros n Hn. apply KN. cbn [callees]. apply in_flat_map. exists (k, c). split; [exact HI|right; exact Hn]. }
  pose proof (wr_calls_rep 1 h t ts pos cs KC IH' [] [] f2 (Forall_nil _) (Forall_nil _) R2) as W. cbn [app] in W.
  destruct (wr_calls table 1 cs f2) as [f3| |]; cbn [grown app]; [|exact W|exact W]. destruct W as (W1 & W2 & W3 & _). split; [exact W1|]. split; congruence.
Qed.
End Walk.
