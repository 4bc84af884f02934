(** Proofs for C72. *)
From Verif Require Import Base CfgFreqModel CfgObjModel CfgObjSpec.

(* ---------------- positions ---------------- *)

Definition sel {A} (l : list A) (t : A -> bool) : list nat :=
  filter (fun i => match nth_error l i with Some e => t e | None => false end) (seq 0 (length l)).

Lemma sel_snoc {A} (l : list A) x t : sel (l ++ [x]) t = sel l t ++ (if t x then [length l] else []).
Proof.
  unfold sel. rewrite app_length. cbn [length]. rewrite Nat.add_1_r, seq_S, filter_app. cbn [plus filter].
  rewrite nth_error_app2, Nat.sub_diag by lia. cbn [nth_error]. f_equal.
  apply filter_ext_in. intros i Hi. apply in_seq in Hi. rewrite nth_error_app1 by lia. reflexivity.
Qed.
Lemma sel_nil {A} (t : A -> bool) : sel [] t = [].
Proof. reflexivity. Qed.
Lemma sel_ext {A B} (l : list A) (l' : list B) t t' :
  length l = length l' ->
  (forall i a b, nth_error l i = Some a -> nth_error l' i = Some b -> t a = t' b) ->
  sel l t = sel l' t'.
Proof.
  intros HL HE. unfold sel. rewrite <- HL. apply filter_ext_in. intros i Hi. apply in_seq in Hi.
  destruct (nth_error l i) as [a|] eqn:Ea; [|apply nth_error_None in Ea; lia].
  destruct (nth_error l' i) as [b|] eqn:Eb; [|apply nth_error_None in Eb; lia].
  apply (HE i); assumption.
Qed.
Lemma sel_In {A} (l : list A) t i : In i (sel l t) <-> exists a, nth_error l i = Some a /\ t a = true.
Proof.
  unfold sel. rewrite filter_In, in_seq. split.
  - intros [_ H]. destruct (nth_error l i) as [a|]; [exists a; auto|discriminate].
  - intros (a & E & Ht). rewrite E. split; [|exact Ht].
    pose proof (proj1 (nth_error_Some l i)). rewrite E in H. lia || (split; [lia|apply H; congruence]).
Qed.
Lemma sel_app {A} (l l' : list A) t : sel (l ++ l') t = sel l t ++ map (plus (length l)) (sel l' t).
Proof.
  induction l' as [|x l' IH] using rev_ind.
  - rewrite app_nil_r. cbn. now rewrite app_nil_r.
  - rewrite app_assoc, !sel_snoc, IH, map_app, app_length, app_assoc. f_equal. destruct (t x); reflexivity.
Qed.
Lemma sel_none {A} (l : list A) t : (forall a, In a l -> t a = false) -> sel l t = [].
Proof.
  induction l as [|x l IH] using rev_ind; intros H; [reflexivity|].
  rewrite sel_snoc, (H x) by (apply in_or_app; right; left; reflexivity).
  rewrite app_nil_r. apply IH. intros a Ha. apply H. apply in_or_app. auto.
Qed.

(* ---------------- ids ---------------- *)

Lemma numbered_snoc l b : forall seen,
  numbered seen (l ++ [b]) = numbered seen l ++ [(b, S (count_occ Nat.eq_dec (seen ++ l) b))].
Proof.
  induction l as [|x l IH]; intros seen; cbn [app numbered].
  - now rewrite app_nil_r.
  - rewrite IH, <- app_assoc. reflexivity.
Qed.
Lemma numbered_app l l' : forall seen, numbered seen (l ++ l') = numbered seen l ++ numbered (seen ++ l) l'.
Proof.
  induction l as [|x l IH]; intros seen; cbn [app numbered].
  - now rewrite app_nil_r.
  - rewrite IH, <- app_assoc. reflexivity.
Qed.
Lemma numbered_length l : forall seen, length (numbered seen l) = length l.
Proof. induction l as [|x l IH]; intros seen; cbn; [reflexivity|]. now rewrite IH. Qed.
Lemma ids_snoc n cl b : ids n (cl ++ [b]) = ids n cl ++ [(b, S (count_occ Nat.eq_dec cl b))].
Proof. unfold ids. rewrite numbered_snoc, app_assoc. reflexivity. Qed.
Lemma ids_length n cl : length (ids n cl) = (n + length cl)%nat.
Proof. unfold ids. rewrite app_length, map_length, seq_length, numbered_length. reflexivity. Qed.

Definition is_clone (b : nat) (id : nat * nat) : bool := (fst id =? b)%nat && negb (snd id =? 0)%nat.

Lemma clones_spec n cl b :
  length (sel (ids n cl) (is_clone b)) = count_occ Nat.eq_dec cl b /\
  forall c p, nth_error (sel (ids n cl) (is_clone b)) c = Some p <-> nth_error (ids n cl) p = Some (b, S c).
Proof.
  induction cl as [|x cl [IL IH]] using rev_ind.
  - assert (sel (ids n []) (is_clone b) = []) as ->.
    { apply sel_none. intros a Ha. unfold ids in Ha. cbn [numbered] in Ha. rewrite app_nil_r in Ha.
      apply in_map_iff in Ha. destruct Ha as (y & <- & _). unfold is_clone. cbn [snd Nat.eqb negb]. apply andb_false_r. }
    split; [reflexivity|]. intros c p. split; intros H; [destruct c; discriminate|].
    unfold ids in H. cbn [numbered] in H. rewrite app_nil_r in H. apply nth_error_In in H.
    apply in_map_iff in H. destruct H as (y & H & _). congruence.
  - rewrite ids_snoc, sel_snoc. 
    assert (is_clone b (x, S (count_occ Nat.eq_dec cl x)) = (x =? b)%nat) as ->
      by (unfold is_clone; cbn [fst snd Nat.eqb negb]; apply andb_true_r).
    rewrite count_occ_app. cbn [count_occ].
    split.
    + rewrite app_length, IL. destruct (Nat.eqb_spec x b) as [->|Hx].
      * destruct (Nat.eq_dec b b); [|congruence]. reflexivity.
      * destruct (Nat.eq_dec x b); [congruence|]. cbn. lia.
    + intros c p. destruct (Nat.ltb_spec p (length (ids n cl))) as [Lp|Lp].
      * rewrite (nth_error_app1 (ids n cl)) by exact Lp. rewrite <- IH.
        destruct (Nat.eqb_spec x b) as [->|Hx]; [|rewrite app_nil_r; reflexivity].
        destruct (Nat.ltb_spec c (length (sel (ids n cl) (is_clone b)))) as [Lc|Lc].
        -- rewrite nth_error_app1 by exact Lc. reflexivity.
        -- rewrite nth_error_app2 by exact Lc. rewrite (proj2 (nth_error_None _ c)) by exact Lc.
           split; [|discriminate]. intros H. destruct (c - _)%nat as [|k]; cbn in H; [injection H as <-; lia|].
           destruct k; discriminate.
      * rewrite (nth_error_app2 (ids n cl)) by exact Lp.
        assert (forall c, nth_error (sel (ids n cl) (is_clone b)) c <> Some p) as NO.
        { intros c' H. apply nth_error_In in H. apply sel_In in H. destruct H as (a & E & _).
          apply nth_error_None in Lp. congruence. }
        destruct (Nat.eqb_spec x b) as [->|Hx].
        -- destruct (Nat.ltb_spec c (length (sel (ids n cl) (is_clone b)))) as [Lc|Lc].
           ++ rewrite nth_error_app1 by exact Lc. split; [intros H; exfalso; exact (NO c H)|].
              intros H. destruct (p - _)%nat as [|k]; cbn in H; [|destruct k; discriminate].
              injection H as H. lia.
           ++ rewrite nth_error_app2 by exact Lc. rewrite IL in *. split.
              ** intros H. destruct (c - _)%nat as [|k] eqn:Ek; cbn in H; [|destruct k; discriminate].
                 injection H as <-. rewrite Nat.sub_diag. cbn. do 3 f_equal. lia.
              ** intros H. destruct (p - _)%nat as [|k] eqn:Ep; cbn in H; [|destruct k; discriminate].
                 injection H as <-. rewrite Nat.sub_diag. cbn. f_equal. lia.
        -- rewrite app_nil_r. split; [intros H; exfalso; exact (NO c H)|].
           intros H. destruct (p - _)%nat as [|k]; cbn in H; [injection H as H _; congruence|destruct k; discriminate].
Qed.

Lemma ids_original n cl b p : nth_error (ids n cl) p = Some (b, 0%nat) <-> (p = b /\ b < n)%nat.
Proof.
  unfold ids. split.
  - intros H. destruct (Nat.ltb_spec p n) as [L|L].
    + rewrite nth_error_app1 in H by (rewrite map_length, seq_length; exact L).
      rewrite nth_error_map in H. destruct (nth_error (seq 0 n) p) as [q|] eqn:E; [|discriminate].
      cbn in H. injection H as ->. pose proof (nth_error_nth _ _ 0%nat E) as E'. rewrite seq_nth in E' by exact L. lia.
    + rewrite nth_error_app2 in H by (rewrite map_length, seq_length; exact L).
      apply nth_error_In in H. exfalso. revert H. generalize (@nil nat). clear.
      induction cl as [|x cl IH]; intros seen H; cbn in H; [exact H|]. destruct H as [H|H]; [discriminate|exact (IH _ H)].
  - intros [-> L]. rewrite nth_error_app1 by (rewrite map_length, seq_length; exact L).
    rewrite nth_error_map, (nth_error_nth' _ 0%nat) by (rewrite seq_length; exact L).
    rewrite seq_nth by exact L. reflexivity.
Qed.

Lemma ids_inj n cl p q id : nth_error (ids n cl) p = Some id -> nth_error (ids n cl) q = Some id -> p = q.
Proof.
  destruct id as [b [|c]]; intros Hp Hq.
  - apply ids_original in Hp. apply ids_original in Hq. lia.
  - apply (proj2 (clones_spec n cl b)) in Hp. apply (proj2 (clones_spec n cl b)) in Hq. congruence.
Qed.

Lemma ids_In n cl b c : Forall (fun b => (b < n)%nat) cl ->
  In (b, c) (ids n cl) <-> (b < n /\ c <= count_occ Nat.eq_dec cl b)%nat.
Proof.
  intros Hcl. split.
  - intros H. apply In_nth_error in H. destruct H as [p H]. destruct c as [|c].
    + apply ids_original in H. split; [tauto|lia].
    + pose proof H as H'. apply (proj2 (clones_spec n cl b)) in H. pose proof (proj1 (clones_spec n cl b)) as L.
      assert (c < length (sel (ids n cl) (is_clone b)))%nat by (apply nth_error_Some; congruence).
      split; [|lia].
      assert (In b cl) as Hb by (apply (count_occ_In Nat.eq_dec); lia).
      rewrite Forall_forall in Hcl. exact (Hcl b Hb).
  - intros [L Hc]. destruct c as [|c].
    + apply (nth_error_In _ b). apply ids_original. auto.
    + pose proof (proj1 (clones_spec n cl b)) as LL.
      destruct (nth_error (sel (ids n cl) (is_clone b)) c) as [p|] eqn:E; [|apply nth_error_None in E; lia].
      apply (proj2 (clones_spec n cl b)) in E. exact (nth_error_In _ _ E).
Qed.

Lemma ids_bound n cl p b c : Forall (fun b => (b < n)%nat) cl -> nth_error (ids n cl) p = Some (b, c) -> (b < n)%nat.
Proof. intros H E. apply nth_error_In in E. apply (ids_In n cl b c H) in E. tauto. Qed.

(* ---------------- small facts ---------------- *)

Lemma nref_eqb_spec a b : reflect (a = b) (nref_eqb a b).
Proof.
  destruct a as [f p], b as [f' p']. unfold nref_eqb. cbn [fst snd].
  destruct (Z.eqb_spec f f'); [|constructor; congruence]. destruct (Nat.eqb_spec p p'); constructor; congruence.
Qed.
Lemma name_eqb_spec a b : reflect (a = b) (name_eqb a b).
Proof.
  destruct a as [f [p c]], b as [f' [p' c']]. unfold name_eqb. cbn [fst snd].
  destruct (Z.eqb_spec f f'); [|constructor; congruence]. destruct (Nat.eqb_spec p p'); [|constructor; congruence].
  destruct (Nat.eqb_spec c c'); constructor; congruence.
Qed.
Lemma kind_eqb_same a b : kind_eqb a b = same_kind a b.
Proof. reflexivity. Qed.
Lemma same_kind_spec a b : reflect (a = b) (same_kind a b).
Proof. destruct a, b; constructor; congruence. Qed.

Lemma nth_error_upd {A} (f : A -> A) l : forall p q,
  nth_error (upd l p f) q = if (p =? q)%nat then option_map f (nth_error l q) else nth_error l q.
Proof.
  induction l as [|x l IH]; intros p q.
  - cbn [upd]. destruct q; cbn; destruct (p =? _)%nat; reflexivity.
  - destruct p as [|p], q as [|q]; cbn; try reflexivity. rewrite IH. reflexivity.
Qed.
Lemma upd_length {A} (f : A -> A) l : forall p, length (upd l p f) = length l.
Proof. induction l as [|x l IH]; intros [|p]; cbn; auto. Qed.

(* ---------------- the invariant ---------------- *)

Notation nb F := (length (f_blocks F)).

Definition t_inside (f : Z) (d : cedge) : bool := (fst (e_src d) =? f) && (fst (e_sink d) =? f).
Definition t_leaving (f : Z) (d : cedge) : bool := (fst (e_src d) =? f) && negb (fst (e_sink d) =? f).
Definition t_entering (f : Z) (d : cedge) : bool := negb (fst (e_src d) =? f) && (fst (e_sink d) =? f).

Record finv (E : list cedge) (F : func) (cl : list nat) (L : list (list full_id)) (g : cfg) : Prop := {
  i_index : g_index g = f_index F;
  i_section : g_section g = f_section F;
  i_module : g_module g = f_module F;
  i_names : g_names g = f_names F;
  i_len : length (g_nodes g) = length (ids (nb F) cl);
  i_node : forall p id n, nth_error (ids (nb F) cl) p = Some id -> nth_error (g_nodes g) p = Some n ->
           shows_node F p id n;
  i_clones : forall b, clones_at b (g_clones g) = sel (ids (nb F) cl) (is_clone b);
  i_some : forall b, aget Nat.eqb b (g_clones g) <> Some [];
  i_pads : g_pads g = Z.of_nat (length (filter (fun id => b_pad (nth (fst id) (f_blocks F) (Block 0 0 0 false 0))) (ids (nb F) cl)));
  i_paths : g_paths g = L;
  i_intra : g_intra g = sel E (t_inside (f_index F));
  i_inter : g_inter g = sel E (t_leaving (f_index F));
  i_lists : forall p n, nth_error (g_nodes g) p = Some n ->
    n_intra_outs n = sel E (fun d => nref_eqb (e_src d) (f_index F, p) && t_inside (f_index F) d) /\
    n_intra_ins n = sel E (fun d => nref_eqb (e_sink d) (f_index F, p) && t_inside (f_index F) d) /\
    n_inter_outs n = sel E (fun d => nref_eqb (e_src d) (f_index F, p) && t_leaving (f_index F) d) /\
    n_inter_ins n = sel E (fun d => nref_eqb (e_sink d) (f_index F, p) && t_entering (f_index F) d) }.

Definition rname (P : list func) (clf : func -> list nat) (r : nref) (x : node_name) : Prop :=
  fst x = fst r /\ exists F, In F P /\ f_index F = fst r /\ nth_error (ids (nb F) (clf F)) (snd r) = Some (snd x).
Definition erel P clf (d : cedge) (a : aedge) : Prop :=
  rname P clf (e_src d) (a_src a) /\ rname P clf (e_sink d) (a_sink a) /\
  e_weight d = a_weight a /\ e_kind d = a_kind a /\ e_isec d = a_isec a.

Record Inv (P : list func) (clf : func -> list nat) (pathf : func -> list (list full_id))
    (A : list aedge) (st : state) : Prop := {
  v_nodup : NoDup (map f_index P);
  v_keys : map fst (s_cfgs st) = map f_index P;
  v_cl : forall F, In F P -> Forall (fun b => (b < nb F)%nat) (clf F);
  v_fns : forall F, In F P -> exists g, cfg_at st (f_index F) = Some g /\ finv (s_edges st) F (clf F) (pathf F) g;
  v_edges : Forall2 (erel P clf) (s_edges st) A }.

Definition id_dec (a b : nat * nat) : {a = b} + {a <> b}.
Proof. decide equality; apply Nat.eq_dec. Defined.

Lemma func_unique P F F' : NoDup (map f_index P) -> In F P -> In F' P -> f_index F = f_index F' -> F = F'.
Proof.
  induction P as [|G P IH]; intros N H H' E; [destruct H|]. cbn in N. inversion N as [|? ? NI N']; subst.
  destruct H as [->|H], H' as [->|H']; auto.
  - exfalso. apply NI. rewrite E. now apply in_map.
  - exfalso. apply NI. rewrite <- E. now apply in_map.
Qed.

Lemma rname_fun P clf r x y : NoDup (map f_index P) -> rname P clf r x -> rname P clf r y -> x = y.
Proof.
  intros N (E1 & F & HF & I1 & T1) (E2 & F' & HF' & I2 & T2).
  assert (Q : F' = F) by (apply (func_unique P); auto; congruence). rewrite Q in *.
  destruct x, y. cbn in *. congruence.
Qed.
Lemma rname_inj P clf r r' x : NoDup (map f_index P) -> rname P clf r x -> rname P clf r' x -> r = r'.
Proof.
  intros N (E1 & F & HF & I1 & T1) (E2 & F' & HF' & I2 & T2).
  assert (Q : F' = F) by (apply (func_unique P); auto; congruence). rewrite Q in *.
  pose proof (ids_inj _ _ _ _ _ T1 T2). destruct r, r'. cbn in *. congruence.
Qed.
Lemma rname_eqb P clf r r' x y : NoDup (map f_index P) -> rname P clf r x -> rname P clf r' y ->
  nref_eqb r r' = name_eqb x y.
Proof.
  intros N H H'. destruct (nref_eqb_spec r r') as [->|NE].
  - rewrite (rname_fun _ _ _ _ _ N H H'). destruct (name_eqb_spec y y); congruence.
  - destruct (name_eqb_spec x y) as [->|]; [|reflexivity]. exfalso. apply NE. exact (rname_inj _ _ _ _ _ N H H').
Qed.

Lemma aget_keys_in {V} f (m : list (Z * V)) : In f (map fst m) -> exists v, aget Z.eqb f m = Some v.
Proof.
  induction m as [|[k v] m IH]; intros H; [destruct H|]. cbn [aget].
  destruct (Z.eqb_spec f k) as [->|N]; [eauto|]. destruct H as [H|H]; [cbn in H; congruence|auto].
Qed.
Lemma aget_keys_none {V} f (m : list (Z * V)) : ~ In f (map fst m) -> aget Z.eqb f m = None.
Proof.
  induction m as [|[k v] m IH]; intros H; [reflexivity|]. cbn [aget].
  destruct (Z.eqb_spec f k) as [->|N]; [exfalso; apply H; left; reflexivity|]. apply IH. intros HI. apply H. now right.
Qed.
Lemma aset_keys {V} f (v : V) m : In f (map fst m) -> map fst (aset Z.eqb f v m) = map fst m.
Proof.
  induction m as [|[k w] m IH]; intros H; [destruct H|]. cbn [aset].
  destruct (Z.eqb_spec f k) as [->|N]; [reflexivity|]. cbn [map fst]. rewrite IH; [reflexivity|].
  destruct H as [H|H]; [cbn in H; congruence|exact H].
Qed.
Lemma aget_Some_key {V} f (v : V) m : aget Z.eqb f m = Some v -> In f (map fst m).
Proof.
  intros H. destruct (in_dec Z.eq_dec f (map fst m)) as [I|I]; [exact I|].
  rewrite (aget_keys_none _ _ I) in H. discriminate.
Qed.
Lemma aget_aset_z {V} f f' (v : V) m : aget Z.eqb f' (aset Z.eqb f v m) = if f' =? f then Some v else aget Z.eqb f' m.
Proof.
  destruct (Z.eqb_spec f' f) as [->|N].
  - exact (aget_aset_same _ Z.eqb_spec _ _ _).
  - rewrite (aget_aset _ Z.eqb_spec). destruct (Z.eqb_spec f' f); [congruence|reflexivity].
Qed.

Lemma Forall2_nth_l {X Y} (R : X -> Y -> Prop) l m : Forall2 R l m -> forall i x, nth_error l i = Some x ->
  exists y, nth_error m i = Some y /\ R x y.
Proof.
  induction 1 as [|x y l m r FE IH]; intros [|i] z E; cbn in *; try discriminate.
  - injection E as ->. eauto.
  - eauto.
Qed.
Lemma Forall2_nth_r {X Y} (R : X -> Y -> Prop) l m : Forall2 R l m -> forall i y, nth_error m i = Some y ->
  exists x, nth_error l i = Some x /\ R x y.
Proof.
  induction 1 as [|x y l m r FE IH]; intros [|i] z E; cbn in *; try discriminate.
  - injection E as ->. eauto.
  - eauto.
Qed.

Section WithInv.
Variables (P : list func) (clf : func -> list nat) (pathf : func -> list (list full_id)) (A : list aedge) (st : state).
Hypothesis V : Inv P clf pathf A st.

Lemma cfg_in f g : cfg_at st f = Some g -> exists F, In F P /\ f_index F = f /\ finv (s_edges st) F (clf F) (pathf F) g.
Proof.
  intros H. pose proof (aget_Some_key _ _ _ H) as K. rewrite (v_keys _ _ _ _ _ V) in K.
  apply in_map_iff in K. destruct K as (F & E & HF). exists F. split; [exact HF|]. split; [exact E|].
  destruct (v_fns _ _ _ _ _ V F HF) as (g' & Hg & I). rewrite E in Hg. congruence.
Qed.
Lemma cfg_out f : ~ (exists F, In F P /\ f_index F = f) -> cfg_at st f = None.
Proof.
  intros H. destruct (cfg_at st f) as [g|] eqn:E; [|reflexivity]. exfalso.
  destruct (cfg_in f g E) as (F & HF & EF & _). eauto.
Qed.

Lemma node_name_at r n : node_at st r = Some n ->
  rname P clf r (n_func n, (n_bb n, n_clone n)).
Proof.
  unfold node_at. intros H. destruct (cfg_at st (fst r)) as [g|] eqn:Eg; [|discriminate].
  destruct (cfg_in _ _ Eg) as (F & HF & EF & I).
  destruct (nth_error (ids (nb F) (clf F)) (snd r)) as [id|] eqn:Ei.
  - pose proof (i_node _ _ _ _ _ I _ _ _ Ei H) as (H1 & H2 & _).
    split; [cbn; congruence|]. exists F. split; [exact HF|]. split; [exact EF|]. cbn [snd]. congruence.
  - apply nth_error_None in Ei. rewrite <- (i_len _ _ _ _ _ I) in Ei. apply nth_error_None in Ei. congruence.
Qed.
Lemma node_at_rname r x : rname P clf r x -> exists n, node_at st r = Some n /\ (n_func n, (n_bb n, n_clone n)) = x.
Proof.
  intros R. pose proof R as (E1 & F & HF & EF & T). destruct (v_fns _ _ _ _ _ V F HF) as (g & Hg & I).
  unfold node_at. rewrite <- EF, Hg.
  destruct (nth_error (g_nodes g) (snd r)) as [n|] eqn:En.
  - exists n. split; [reflexivity|].
    assert (node_at st r = Some n) as HN by (unfold node_at; rewrite <- EF, Hg; exact En).
    exact (rname_fun _ _ _ _ _ (v_nodup _ _ _ _ _ V) (node_name_at _ _ HN) R).
  - apply nth_error_None in En. rewrite (i_len _ _ _ _ _ I) in En. apply nth_error_None in En. congruence.
Qed.

Lemma get_by_id F g p id : In F P -> finv (s_edges st) F (clf F) (pathf F) g ->
  nth_error (ids (nb F) (clf F)) p = Some id -> GetNodeById g id = Ok p.
Proof.
  intros HF I H. destruct id as [b [|c]]; unfold GetNodeById; cbn [Nat.eqb].
  - pose proof H as H0. apply ids_original in H. destruct H as [-> L].
    assert (length (ids (nb F) (clf F)) = (nb F + length (clf F))%nat) as LL by apply ids_length.
    rewrite (i_len _ _ _ _ _ I), LL. destruct (Nat.leb_spec b (nb F + length (clf F))); [|lia]. cbn [negb].
    destruct (nth_error (g_nodes g) b) as [n|] eqn:En.
    + destruct (i_node _ _ _ _ _ I _ _ _ H0 En) as (_ & E & _). injection E as -> _.
      rewrite Nat.eqb_refl. reflexivity.
    + apply nth_error_None in En. rewrite (i_len _ _ _ _ _ I), LL in En. lia.
  - apply (proj2 (clones_spec _ _ _)) in H. rewrite <- (i_clones _ _ _ _ _ I) in H. unfold clones_at in H.
    destruct (aget Nat.eqb b (g_clones g)) as [l|]; [|destruct c; discriminate].
    replace (S c - 1)%nat with c by lia.
    assert (c < length l)%nat as Lc by (apply nth_error_Some; congruence).
    destruct (Nat.ltb_spec c (length l)); [|lia]. cbn [negb]. rewrite H. reflexivity.
Qed.
Lemma get_by_id_none F g id : In F P -> finv (s_edges st) F (clf F) (pathf F) g ->
  ~ In id (ids (nb F) (clf F)) -> GetNodeById g id = Abort.
Proof.
  intros HF I H. destruct id as [b [|c]]; unfold GetNodeById; cbn [Nat.eqb].
  - destruct (b <=? _)%nat; [|reflexivity]. cbn [negb].
    destruct (nth_error (g_nodes g) b) as [n|] eqn:En; [|reflexivity].
    destruct (nth_error (ids (nb F) (clf F)) b) as [[b' c']|] eqn:Ei.
    + destruct (i_node _ _ _ _ _ I _ _ _ Ei En) as (_ & E & _). injection E as -> Ec.
      destruct (Nat.eqb_spec b' b) as [->|]; [|reflexivity]. exfalso. apply H.
      pose proof (v_cl _ _ _ _ _ V F HF) as Hcl.
      apply (ids_In _ _ _ _ Hcl). split; [|lia]. exact (ids_bound _ _ _ _ _ Hcl Ei).
    + apply nth_error_None in Ei. rewrite <- (i_len _ _ _ _ _ I) in Ei. apply nth_error_None in Ei. congruence.
  - destruct (aget Nat.eqb b (g_clones g)) as [l|] eqn:El; [|reflexivity].
    replace (S c - 1)%nat with c by lia. destruct (Nat.ltb_spec c (length l)) as [L|L]; [|reflexivity]. cbn [negb].
    destruct (nth_error l c) as [p|] eqn:En; [|reflexivity]. exfalso. apply H.
    assert (clones_at b (g_clones g) = l) as Q by (unfold clones_at; rewrite El; reflexivity).
    rewrite (i_clones _ _ _ _ _ I) in Q. rewrite <- Q in En. apply (proj2 (clones_spec _ _ _)) in En.
    exact (nth_error_In _ _ En).
Qed.

Lemma lookup_ok x r : lookup st x = Ok r <-> rname P clf r x.
Proof.
  unfold lookup. split.
  - intros H. destruct (cfg_at st (fst x)) as [g|] eqn:Eg; [|discriminate].
    destruct (cfg_in _ _ Eg) as (F & HF & EF & I).
    destruct (in_dec id_dec (snd x) (ids (nb F) (clf F))) as [HI|HI].
    + apply In_nth_error in HI. destruct HI as [p Hp]. rewrite (get_by_id F g p _ HF I Hp) in H. cbn [obind] in H.
      injection H as <-. split; [reflexivity|]. exists F. auto.
    + rewrite (get_by_id_none F g _ HF I HI) in H. discriminate.
  - intros (E & F & HF & EF & T). destruct (v_fns _ _ _ _ _ V F HF) as (g & Hg & I).
    rewrite E, <- EF, Hg, (get_by_id F g _ _ HF I T). cbn [obind]. rewrite EF. destruct r; reflexivity.
Qed.

(** Edges, seen through pointers or through names. *)
Lemma edge_exists (a b : nref) s d t ta :
  rname P clf a s -> rname P clf b d ->
  (forall e x, erel P clf e x -> t e = ta x) ->
  existsb (fun e => match nth_error (s_edges st) e with
                    | Some c => nref_eqb (e_src c) a && nref_eqb (e_sink c) b
                    | None => false end) (sel (s_edges st) t) = true <->
  exists x, In x A /\ ta x = true /\ a_src x = s /\ a_sink x = d.
Proof.
  intros Ra Rb HT. rewrite existsb_exists. pose proof (v_nodup _ _ _ _ _ V) as N. split.
  - intros (e & He & Hm). apply sel_In in He. destruct He as (c & Ec & Tc). rewrite Ec in Hm.
    pose proof (v_edges _ _ _ _ _ V) as FE.
    assert (exists x, nth_error A e = Some x /\ erel P clf c x) as (x & Ex & Rx).
    { exact (Forall2_nth_l _ _ _ FE _ _ Ec). }
    exists x. split; [exact (nth_error_In _ _ Ex)|]. rewrite <- (HT _ _ Rx). split; [exact Tc|].
    destruct Rx as (R1 & R2 & _). apply andb_true_iff in Hm. destruct Hm as [H1 H2].
    rewrite (rname_eqb _ _ _ _ _ _ N R1 Ra) in H1. rewrite (rname_eqb _ _ _ _ _ _ N R2 Rb) in H2.
    destruct (name_eqb_spec (a_src x) s); [|discriminate]. destruct (name_eqb_spec (a_sink x) d); [|discriminate]. auto.
  - intros (x & Hx & Tx & Es & Ed). apply In_nth_error in Hx. destruct Hx as [e Ex].
    pose proof (v_edges _ _ _ _ _ V) as FE.
    assert (exists c, nth_error (s_edges st) e = Some c /\ erel P clf c x) as (c & Ec & Rx).
    { exact (Forall2_nth_r _ _ _ FE _ _ Ex). }
    exists e. split.
    + apply sel_In. exists c. split; [exact Ec|]. rewrite (HT _ _ Rx). exact Tx.
    + rewrite Ec. destruct Rx as (R1 & R2 & _). rewrite Es in R1. rewrite Ed in R2.
      rewrite (rname_inj _ _ _ _ _ N R1 Ra), (rname_inj _ _ _ _ _ N R2 Rb).
      destruct (nref_eqb_spec a a), (nref_eqb_spec b b); cbn; congruence.
Qed.
End WithInv.
