(** Proofs about the symbol ordering file. *)
From Coq Require Import String Ascii DecimalString.
From Verif Require Import Base LayoutSpec LayoutProofs WriterModel WriterSpec.

(** * Filling slots *)
Fixpoint assign_all {A} (U : list (Z * A)) (l : list A) : outcome (list A) :=
  match U with [] => Ok l | (i, x) :: U' => let! l' := assign i x l in assign_all U' l' end.
Lemma assign_all_app {A} (U V : list (Z * A)) : forall l, assign_all (U ++ V) l = let! l' := assign_all U l in assign_all V l'.
Proof. induction U as [|[i x] U IH]; intros l; [reflexivity|]. cbn [app assign_all]. destruct (assign i x l); cbn [obind]; auto. Qed.
Lemma put_ok {A} (x : A) : forall l i, (i < length l)%nat -> exists r, put i x l = Some r /\ length r = length l /\ nth_error r i = Some x /\ forall j, j <> i -> nth_error r j = nth_error l j.
Proof.
  induction l as [|y l IH]; intros i H; [cbn in H; lia|]. destruct i as [|i]; cbn [put].
  - exists (x :: l). repeat split; auto. intros [|j] NE; [lia|reflexivity].
  - destruct (IH i) as [r [-> [L [N O]]]]; [cbn in H; lia|]. exists (y :: r). split; [reflexivity|]. split; [cbn; lia|]. split; [exact N|]. intros [|j] NE; [reflexivity|]. apply O. lia.
Qed.
Lemma assign_all_ok {A} (U : list (Z * A)) : forall l, NoDup (map fst U) -> (forall i x, In (i, x) U -> 0 <= i < zlen l) ->
  exists r, assign_all U l = Ok r /\ length r = length l /\ (forall i x, In (i, x) U -> nth_error r (Z.to_nat i) = Some x) /\
    forall j, 0 <= j -> ~ In j (map fst U) -> nth_error r (Z.to_nat j) = nth_error l (Z.to_nat j).
Proof.
  induction U as [|[i x] U IH]; intros l N H; cbn [assign_all map fst] in *.
  - exists l. repeat split; auto. intros i x [].
  - inversion N as [|? ? N1 N2]; subst. pose proof (H i x (or_introl eq_refl)) as R. unfold assign. destruct (Z.ltb_spec i 0); [lia|].
    destruct (put_ok x l (Z.to_nat i)) as [r [-> [L [NX O]]]]; [unfold zlen in R; lia|]. cbn [obind].
    destruct (IH r N2) as [r' [Q [L' [S1 S2]]]]; [intros j y Hj; unfold zlen; rewrite L; apply (H j y); right; exact Hj|].
    exists r'. split; [exact Q|]. split; [lia|]. split.
    + intros j y [E|Hj]; [|apply S1; exact Hj]. injection E as <- <-. rewrite S2; [exact NX|lia|exact N1].
    + intros j P NI. rewrite S2; [|exact P|intros X; apply NI; right; exact X]. apply O. intros E. apply Z2Nat.inj in E; [|lia|lia]. subst j. apply NI. left. reflexivity.
Qed.
Lemma nth_ext_error {A} : forall (l k : list A), (forall i, nth_error l i = nth_error k i) -> l = k.
Proof.
  induction l as [|x l IH]; intros [|y k] H; [reflexivity|specialize (H 0%nat); discriminate|specialize (H 0%nat); discriminate|].
  f_equal; [specialize (H 0%nat); injection H; auto|apply IH; intros i; exact (H (S i))].
Qed.
Lemma range_zlen n : 0 <= n -> length (range n) = Z.to_nat n.
Proof. intros H. unfold range. rewrite map_length, seq_length. reflexivity. Qed.
Lemma range_In n i : In i (range n) <-> 0 <= i < n.
Proof.
  unfold range. rewrite in_map_iff. split.
  - intros [k [<- H]]. apply in_seq in H. lia.
  - intros H. exists (Z.to_nat i). rewrite in_seq. lia.
Qed.
Lemma range_NoDup n : NoDup (range n).
Proof. unfold range. apply FinFun.Injective_map_NoDup; [intros a b E; lia|apply seq_NoDup]. Qed.
(** If the places are exactly 0..n-1 then the slots end up with the values in
    the order of their places. *)
Lemma assign_range {A B} (place : B -> Z) (val : B -> A) (L : list B) (l : list A) :
  Permutation (map place L) (range (zlen L)) -> zlen l = zlen L ->
  exists ps, Permutation ps L /\ map place ps = range (zlen L) /\ assign_all (map (fun b => (place b, val b)) L) l = Ok (map val ps).
Proof.
  intros P EL. destruct (Permutation_map_inv _ _ (Permutation_sym P)) as [ps [Q PS]]. exists ps. split; [apply Permutation_sym; exact PS|]. split; [symmetry; exact Q|].
  assert (F : map fst (map (fun b => (place b, val b)) L) = map place L) by (rewrite map_map; reflexivity).
  destruct (assign_all_ok (map (fun b => (place b, val b)) L) l) as [r [E [LR [S1 _]]]].
  - rewrite F. eapply Permutation_NoDup; [apply Permutation_sym; exact P|apply range_NoDup].
  - intros i x H. apply in_map_iff in H as [b [E Hb]]. injection E as <- <-. rewrite EL. apply range_In. apply (Permutation_in _ P). apply in_map. exact Hb.
  - rewrite E. f_equal. apply nth_ext_error. intros k.
    assert (LP : length ps = length L) by (apply Permutation_length, Permutation_sym; exact PS).
    destruct (Nat.lt_ge_cases k (length ps)) as [LT|GE].
    + destruct (nth_error ps k) as [b|] eqn:NB; [|apply nth_error_None in NB; lia].
      rewrite (map_nth_error val k ps NB). assert (PB : place b = Z.of_nat k).
      { pose proof (map_nth_error place k ps NB) as X. rewrite <- Q in X. unfold range in X. rewrite nth_error_map in X.
        destruct (nth_error (seq 0 (Z.to_nat (zlen L))) k) as [j|] eqn:NS; [|discriminate]. cbn in X.
        assert (j = k). { rewrite (nth_error_nth' _ 0%nat) in NS; [|rewrite seq_length; unfold zlen; lia]. rewrite seq_nth in NS; [|unfold zlen; lia]. injection NS as <-. reflexivity. }
        injection X as <-. subst j. reflexivity. }
      assert (HB : In b L) by (apply (Permutation_in _ (Permutation_sym PS)); eapply nth_error_In; exact NB).
      rewrite <- (S1 (place b) (val b)); [|apply in_map_iff; eauto]. rewrite PB, Nat2Z.id. reflexivity.
    + transitivity (@None A); [apply nth_error_None; unfold zlen in EL; lia|symmetry; apply nth_error_None; rewrite map_length; lia].
Qed.

(** * Texts *)
Lemma digits_string u : digits u = bytes (NilEmpty.string_of_uint u).
Proof. unfold bytes. induction u; [reflexivity|..]; cbn [digits NilEmpty.string_of_uint list_ascii_of_string map]; rewrite IHu; reflexivity. Qed.
Lemma dec_decimal n : 0 <= n -> dec n = decimal n.
Proof. intros H. unfold dec, decimal. destruct (Z.ltb_spec n 0); [lia|]. apply digits_string. Qed.
Lemma lines_app a b : lines (a ++ b) = lines a ++ lines b.
Proof. apply flat_map_app. Qed.
Lemma lines_map {A} (f : A -> text) l : lines (map f l) = flat_map (fun x => f x ++ [10]) l.
Proof. unfold lines. rewrite !flat_map_concat_map, map_map. reflexivity. Qed.
Lemma flat_map_ext_in {A B} (f g : A -> list B) l : (forall x, In x l -> f x = g x) -> flat_map f l = flat_map g l.
Proof. induction l as [|x l IH]; intros H; [reflexivity|]. cbn [flat_map]. rewrite (H x), IH; auto; [intros; apply H; right; assumption|left; reflexivity]. Qed.

(** * Slots and texts of the functions *)
Section Functions.
  Context (verbose : bool) (v : version) (cfgs : Z -> option wcfg).
  Local Notation E := (GetProfileEncoding v).
  (** The text of one cluster line, one function, all functions. *)
  Definition clusters_text (cs : list wcluster) : text := flat_map (fun c => blocks_text E true (wc_blocks c) ++ [nl]) cs.
  Definition paths_text (ps : list (list bbid)) : text := flat_map (fun p => e_path E ++ join (txt " ") (map (fun b => dec (i_bb b)) p) ++ [nl]) ps.
  Definition head_text (g : wcfg) : text :=
    match w_module g, v with Some m, V1 => e_module E ++ m ++ [nl] | _, _ => [] end ++ (e_func E ++ join (e_sep E) (w_names g)) ++
    match w_module g, v with Some m, V0 => e_module E ++ m | _, _ => [] end ++ [nl].
  Definition scores_text (z : winfo) (g : wcfg) : text :=
    if verbose then wi_scores z ++ [nl] ++ txt "#entry-freq " ++ dec (match w_nodes g with n :: _ => wn_freq n | [] => 0 end) ++ [nl] else [].
  Definition function_text (z : winfo) : text :=
    match cfgs (wi_func z) with
    | None => []
    | Some g => head_text g ++ paths_text (w_paths g) ++ scores_text z g ++ clusters_text (wi_clusters z) ++ (if verbose then DumpCfgProfile g else [])
    end.
  Definition first_index (c : wcluster) : Z := match wc_blocks c with b :: _ => i_index b | [] => 0 end.
  Definition part_slot (p : winfo * Z * wcluster) : slot := (names_of cfgs (fst (fst p)), if first_index (snd p) =? 0 then None else Some (snd (fst p))).
  Lemma clusters_ok z names : forall cs id cc so, names = names_of cfgs z -> (forall c, In c cs -> wc_blocks c <> []) ->
    write_clusters E names id cs cc so =
    let! so' := assign_all (map (fun p => (part_index p, part_slot p)) (map (fun p => (z, fst p, snd p)) (numbered id cs))) so in Ok (cc ++ clusters_text cs, so').
  Proof.
    induction cs as [|c cs IH]; intros id cc so EN H; cbn [write_clusters numbered map assign_all clusters_text flat_map].
    - cbn [obind]. rewrite app_nil_r. reflexivity.
    - pose proof (H c (or_introl eq_refl)) as NE. destruct (wc_blocks c) as [|b bs] eqn:EB; [congruence|].
      unfold part_index at 1, part_slot at 1. cbn [fst snd]. unfold first_index. rewrite EB, <- EN. destruct (assign _ _ so) as [so1| |]; [|reflexivity|reflexivity]. cbn [obind].
      rewrite IH; [|exact EN|intros; apply H; right; assumption]. destruct (assign_all _ so1); cbn [obind]; [|reflexivity|reflexivity].
      rewrite <- !app_assoc. reflexivity.
  Qed.
  Lemma paths_ok_text ps : (v = V0 -> ps = []) -> forall cc, write_paths E ps cc = Ok (cc ++ paths_text ps).
  Proof.
    intros HV. assert (D : v = V0 \/ v = V1) by (destruct v; auto). destruct D as [D|D]; [intros cc; rewrite (HV D); cbn; rewrite app_nil_r; reflexivity|]. clear HV.
    induction ps as [|p ps IH]; intros cc; cbn [write_paths]; unfold paths_text; cbn [flat_map]; [rewrite app_nil_r; reflexivity|].
    rewrite D at 1. cbn [GetProfileEncoding e_version]. rewrite IH. unfold paths_text. rewrite <- !app_assoc. reflexivity.
  Qed.
  Lemma function_ok z g cc so cold : cfgs (wi_func z) = Some g -> w_nodes g <> [] -> (forall c, In c (wi_clusters z) -> wc_blocks c <> []) -> (v = V0 -> w_paths g = []) ->
    write_function verbose E cfgs z (cc, so, cold) =
    let! so' := assign_all (map (fun p => (part_index p, part_slot p)) (map (fun p => (z, fst p, snd p)) (numbered 0 (wi_clusters z)))) so in
    let! cold' := assign (wi_cold z) (Some z) cold in Ok (cc ++ function_text z, so', cold').
  Proof.
    intros HG HN HC HP. unfold write_function. rewrite HG. rewrite (paths_ok_text _ HP). cbn [obind].
    set (h := ((cc ++ _) ++ _) ++ _). destruct (w_nodes g) as [|n0 ns] eqn:EN; [congruence|].
    assert (S1 : (if verbose then Ok ((h ++ [nl]) ++ paths_text (w_paths g) ++ wi_scores z ++ [nl] ++ txt "#entry-freq " ++ dec (wn_freq n0) ++ [nl]) else Ok ((h ++ [nl]) ++ paths_text (w_paths g))) = Ok (cc ++ head_text g ++ paths_text (w_paths g) ++ scores_text z g)).
    { unfold scores_text, head_text, h. rewrite EN. assert (EE : e_version E = v) by (destruct v; reflexivity). rewrite EE. destruct verbose; rewrite <- ?app_assoc, ?app_nil_r; reflexivity. }
    assert (S2 : (if verbose then Ok (((h ++ [nl]) ++ paths_text (w_paths g)) ++ wi_scores z ++ [nl] ++ txt "#entry-freq " ++ dec (wn_freq n0) ++ [nl]) else Ok ((h ++ [nl]) ++ paths_text (w_paths g))) = Ok (cc ++ head_text g ++ paths_text (w_paths g) ++ scores_text z g)).
    { rewrite <- S1. destruct verbose; rewrite <- ?app_assoc; reflexivity. }
    rewrite S2. cbn [obind]. rewrite (clusters_ok z) by (auto; unfold names_of; rewrite HG; reflexivity).
    destruct (assign_all _ so) as [so'| |]; cbn [obind]; [|reflexivity|reflexivity]. destruct (assign (wi_cold z) (Some z) cold) as [cold'| |]; cbn [obind]; [|reflexivity|reflexivity].
    unfold function_text. rewrite HG. destruct verbose; rewrite <- ?app_assoc, ?app_nil_r; reflexivity.
  Qed.
  Lemma functions_ok zs : (forall z, In z zs -> exists g, cfgs (wi_func z) = Some g /\ w_nodes g <> [] /\ (forall c, In c (wi_clusters z) -> wc_blocks c <> []) /\ (v = V0 -> w_paths g = [])) ->
    forall cc so cold so' cold', assign_all (map (fun p => (part_index p, part_slot p)) (parts zs)) so = Ok so' -> assign_all (map (fun z => (wi_cold z, Some z)) zs) cold = Ok cold' ->
    write_functions verbose E cfgs zs (cc, so, cold) = Ok (cc ++ flat_map function_text zs, so', cold').
  Proof.
    induction zs as [|z zs IH]; intros H cc so cold so' cold' HS HC; cbn [write_functions flat_map].
    - cbn in HS, HC. injection HS as <-. injection HC as <-. rewrite app_nil_r. reflexivity.
    - destruct (H z (or_introl eq_refl)) as [g [HG [HN [HB HP]]]]. rewrite (function_ok z g) by assumption.
      unfold parts in HS. cbn [flat_map] in HS. rewrite map_app, assign_all_app in HS. destruct (assign_all _ so) as [so1| |] eqn:A1 in HS; try discriminate. cbn [obind] in HS. rewrite A1. cbn [obind].
      cbn [map assign_all] in HC. destruct (assign (wi_cold z) (Some z) cold) as [cold1| |]; try discriminate. cbn [obind] in HC |- *.
      rewrite (IH (fun z' Hz => H z' (or_intror Hz)) _ _ _ so' cold' HS HC). rewrite <- app_assoc. reflexivity.
  Qed.
End Functions.

(** * Sections *)
Lemma fold_count {A} (f : A -> Z) l : forall n, fold_left (fun n x => n + f x) l n = n + fold_right Z.add 0 (map f l).
Proof. induction l as [|x l IH]; intros n; cbn [fold_left map fold_right]; [lia|]. rewrite IH. lia. Qed.
Lemma count_flat {A B} (f : A -> list B) l : fold_right Z.add 0 (map (fun x => zlen (f x)) l) = zlen (flat_map f l).
Proof. induction l as [|x l IH]; [reflexivity|]. cbn [map fold_right flat_map]. rewrite IH, zlen_app. reflexivity. Qed.
Lemma parts_clusters zs : map snd (parts zs) = flat_map wi_clusters zs.
Proof.
  unfold parts. induction zs as [|z zs IH]; [reflexivity|]. cbn [flat_map]. rewrite map_app, IH, map_map. cbn [snd]. rewrite numbered_snd. reflexivity.
Qed.
Lemma parts_len zs : zlen (parts zs) = zlen (flat_map wi_clusters zs).
Proof. rewrite <- parts_clusters. unfold zlen. rewrite map_length. reflexivity. Qed.
Lemma parts_In zs z k c : In (z, k, c) (parts zs) -> In z zs /\ In c (wi_clusters z) /\ 0 <= k.
Proof.
  intros H. apply in_flat_map in H as [z' [Hz H]]. apply in_map_iff in H as [[k' c'] [Q H]]. cbn in Q. injection Q as -> -> ->. apply numbered_In in H. split; [exact Hz|]. split; [tauto|lia].
Qed.

Section Section_.
  Context (verbose : bool) (v : version) (cfgs : Z -> option wcfg) (zs : list winfo) (W : section_wf cfgs zs) (PO : paths_ok v cfgs zs).
  Lemma info_cfg z : In z zs -> exists g, cfgs (wi_func z) = Some g /\ w_nodes g <> [] /\ (forall c, In c (wi_clusters z) -> wc_blocks c <> []) /\ (v = V0 -> w_paths g = []).
  Proof.
    intros Hz. pose proof (sw_cfg _ _ W z Hz) as HC. destruct (cfgs (wi_func z)) as [g|] eqn:G; [|congruence]. exists g. split; [reflexivity|].
    destruct (sw_blocks _ _ W z Hz) as [_ [_ [NN _]]]. unfold nodes_of in NN. rewrite G in NN. split; [intros X; apply NN; rewrite X; reflexivity|].
    split; [intros c Hc; apply (sw_nonempty _ _ W z c Hz Hc)|]. intros V. exact (PO V z g Hz G).
  Qed.
  Lemma has_entry_first z c : In z zs -> In c (wi_clusters z) -> has_entry (wc_blocks c) = (first_index c =? 0).
  Proof.
    intros Hz Hc. pose proof (sw_nonempty _ _ W z c Hz Hc) as NE. pose proof (sw_entry _ _ W z c) as SE. unfold first_index, has_entry. destruct (wc_blocks c) as [|b bs]; [congruence|]. cbn [existsb tl] in *.
    assert (X : existsb (fun b => i_index b =? 0) bs = false); [|rewrite X, orb_false_r; reflexivity].
    apply Bool.not_true_is_false. intros X. apply existsb_exists in X as [b' [Hb X]]. apply Z.eqb_eq in X. apply (SE b' Hz Hc Hb X).
  Qed.
  Lemma slot_text z k c : In (z, k, c) (parts zs) -> write_slot (part_slot cfgs (z, k, c)) = lines (part_symbols cfgs (z, k, c)).
  Proof.
    intros H. destruct (parts_In _ _ _ _ H) as [Hz [Hc Hk]]. unfold write_slot, part_slot, part_symbols. cbn [fst snd]. rewrite lines_map, (has_entry_first z c Hz Hc).
    apply flat_map_ext_in. intros n _. destruct (first_index c =? 0); cbn [snd]; [reflexivity|]. rewrite (dec_decimal k Hk), <- !app_assoc. reflexivity.
  Qed.
  Lemma placed_count z : In z zs -> (fold_left (fun n c => n + zlen (wc_blocks c)) (wi_clusters z) 0 =? zlen (nodes_of cfgs z)) = true <-> all_placed cfgs z.
  Proof.
    intros Hz. destruct (sw_blocks _ _ W z Hz) as [N1 [N2 [_ I]]]. rewrite fold_count, Z.add_0_l, count_flat. change (flat_map (fun x => wc_blocks x) (wi_clusters z)) with (placed z). rewrite Z.eqb_eq. split.
    - intros Q b Hb. revert b Hb. apply NoDup_length_incl; [exact N1|unfold zlen in Q; change (flat_map (fun x => wc_blocks x) (wi_clusters z)) with (placed z) in Q; apply Nat2Z.inj in Q; rewrite <- Q; apply Nat.le_refl|exact I].
    - intros A. pose proof (NoDup_incl_length N1 I) as L1. pose proof (NoDup_incl_length N2 A) as L2. unfold zlen. f_equal. apply Nat.le_antisymm; assumption.
  Qed.
  Lemma entry_placed z : In z zs -> existsb (fun c => match wc_blocks c with b :: _ => i_index b =? 0 | [] => false end) (wi_clusters z) = has_entry (placed z).
  Proof.
    intros Hz. unfold placed. assert (H : forall c, In c (wi_clusters z) -> In c (wi_clusters z)) by auto. revert H. generalize (wi_clusters z) at 1 3 4 as cs.
    induction cs as [|c cs IH]; intros H; [reflexivity|]. cbn [existsb flat_map]. unfold has_entry. rewrite existsb_app. rewrite IH by (intros; apply H; right; assumption). fold (has_entry (wc_blocks c)).
    rewrite (has_entry_first z c Hz (H c (or_introl eq_refl))). unfold first_index, has_entry. pose proof (sw_nonempty _ _ W z c Hz (H c (or_introl eq_refl))). destruct (wc_blocks c); [congruence|reflexivity].
  Qed.
  Lemma cold_ok cs : (forall z, In z cs -> In z zs) -> exists ss, Forall2 (cold_symbols cfgs) cs ss /\ forall ld, write_cold cfgs (map Some cs) ld = Ok (ld ++ lines (concat ss)).
  Proof.
    induction cs as [|z cs IH]; intros H.
    - exists []. split; [constructor|]. intros ld. cbn. rewrite app_nil_r. reflexivity.
    - destruct IH as [ss [F R]]; [intros; apply H; right; assumption|]. pose proof (H z (or_introl eq_refl)) as Hz. destruct (info_cfg z Hz) as [g [HG [_ [HB _]]]].
      pose proof (placed_count z Hz) as PC. assert (LN : zlen (nodes_of cfgs z) = zlen (w_nodes g)) by (unfold nodes_of, zlen; rewrite HG, map_length; reflexivity). rewrite LN in PC.
      cbn [map write_cold]. rewrite HG. destruct (fold_left _ _ 0 =? zlen (w_nodes g)).
      + exists ([] :: ss). split; [constructor; [constructor; apply PC; reflexivity|exact F]|]. intros ld. rewrite R. reflexivity.
      + assert (NE : existsb (fun c => match wc_blocks c with [] => true | _ => false end) (wi_clusters z) = false).
        { apply Bool.not_true_is_false. intros X. apply existsb_exists in X as [c [Hc X]]. specialize (HB c Hc). destruct (wc_blocks c); [congruence|discriminate]. }
        rewrite NE, (entry_placed z Hz). eexists (_ :: ss). split; [constructor; [apply cold_rest; intros A; apply PC in A; discriminate|exact F]|].
        intros ld. rewrite R. cbn [concat]. rewrite lines_app, lines_map, <- app_assoc. f_equal. f_equal. f_equal. unfold names_of. rewrite HG. apply flat_map_ext_in. intros n _. destruct (has_entry (placed z)); rewrite <- ?app_assoc; reflexivity.
  Qed.
  Theorem section_ok_text name cc ld : exists ss, section_symbols cfgs zs ss /\
    write_section verbose (GetProfileEncoding v) cfgs (name, zs) (cc, ld) =
    Ok (cc ++ (if verbose then txt "#section " ++ name ++ [nl] else []) ++ flat_map (function_text verbose v cfgs) zs, ld ++ lines ss).
  Proof.
    pose proof (sw_index _ _ W) as PI. pose proof (sw_cold _ _ W) as PCo.
    assert (PI' : Permutation (map part_index (parts zs)) (range (zlen (parts zs)))).
    { rewrite parts_len. replace (map part_index (parts zs)) with (map wc_index (flat_map wi_clusters zs)); [exact PI|]. rewrite <- parts_clusters, map_map. reflexivity. }
    destruct (assign_range part_index (part_slot cfgs) (parts zs) (repeat ([], None) (Z.to_nat (zlen (parts zs)))) PI') as [ps [P1 [P2 P3]]].
    { unfold zlen at 1. rewrite repeat_length. pose proof (zlen_nonneg (parts zs)). lia. }
    destruct (assign_range wi_cold (@Some winfo) zs (repeat None (List.length zs)) PCo) as [cs [C1 [C2 C3]]].
    { unfold zlen. rewrite repeat_length. reflexivity. }
    destruct (cold_ok cs) as [ss [F R]]; [intros z Hz; apply (Permutation_in _ C1); exact Hz|].
    exists (flat_map (part_symbols cfgs) ps ++ concat ss). split; [econstructor; eassumption|].
    unfold write_section. rewrite fold_count, Z.add_0_l, count_flat. change (flat_map (fun x => wi_clusters x) zs) with (flat_map wi_clusters zs). rewrite <- parts_len.
    rewrite (functions_ok verbose v cfgs zs info_cfg _ _ _ _ _ P3 C3). cbn [obind]. rewrite R. cbn [obind]. f_equal. f_equal.
    - destruct verbose; rewrite <- ?app_assoc; reflexivity.
    - rewrite lines_app, <- !app_assoc. f_equal. f_equal. clear - P1 W. assert (H : forall p, In p ps -> In p (parts zs)) by (intros p Hp; apply (Permutation_in _ P1); exact Hp). clear P1.
      induction ps as [|[[z k] c] ps IH]; [reflexivity|]. cbn [map flat_map]. rewrite lines_app, IH by (intros; apply H; right; assumption). f_equal. apply slot_text, H. left. reflexivity.
  Qed.
End Section_.

Lemma sections_ok verbose v cfgs secs : (forall s, In s secs -> section_wf cfgs (snd s) /\ paths_ok v cfgs (snd s)) -> forall cc ld,
  exists sss, Forall2 (section_symbols cfgs) (map snd secs) sss /\
    write_sections verbose (GetProfileEncoding v) cfgs secs (cc, ld) =
    Ok (cc ++ flat_map (fun s => (if verbose then txt "#section " ++ fst s ++ [nl] else []) ++ flat_map (function_text verbose v cfgs) (snd s)) secs, ld ++ lines (concat sss)).
Proof.
  induction secs as [|[name zs] secs IH]; intros H cc ld; cbn [write_sections map flat_map].
  - exists []. split; [constructor|]. cbn. rewrite !app_nil_r. reflexivity.
  - destruct (H _ (or_introl eq_refl)) as [W PO]. cbn [snd] in W, PO. destruct (section_ok_text verbose v cfgs zs W PO name cc ld) as [ss [S1 ->]]. cbn [obind].
    destruct (IH (fun s Hs => H s (or_intror Hs)) (cc ++ (if verbose then txt "#section " ++ name ++ [nl] else []) ++ flat_map (function_text verbose v cfgs) zs) (ld ++ lines ss)) as [sss [F ->]].
    exists (ss :: sss). split; [constructor; assumption|]. cbn [concat fst snd]. rewrite lines_app, <- !app_assoc. reflexivity.
Qed.
