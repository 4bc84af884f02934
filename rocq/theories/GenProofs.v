(** Proofs about GenModel. *)
From Coq Require Import Permutation.
From Verif Require Import Base SymbolModel SymbolProofs MMapModel MMapSpec MMapProps BinaryIdModel BinaryIdProps CfgFreqModel GenModel GenSpec.

(** * Names *)
Lemma hex_digit_of v : 0 <= v < 16 -> hex_digit v (hex_to_char v).
Proof. intros H. unfold hex_digit, hex_to_char. destruct (Z.ltb_spec v 10); lia. Qed.
Lemma hex_digit_det v c c' : hex_digit v c -> hex_digit v c' -> c = c'.
Proof. unfold hex_digit. lia. Qed.
Lemma hex_digit_range v c : hex_digit v c -> 0 <= v < 16.
Proof. unfold hex_digit. lia. Qed.
Lemma hex_text_iff h : (forall x, In x h -> 0 <= x < 256) -> forall t, BinaryDataToAscii h = t <-> hex_text h t.
Proof.
  induction h as [|b h IH]; intros Hb t; cbn [BinaryDataToAscii].
  - split; [intros <-; constructor|intros H; inversion H; reflexivity].
  - pose proof (Hb b (or_introl eq_refl)) as Hr. destruct (nibbles b Hr) as [N1 [N2 E]]. specialize (IH (fun x Hx => Hb x (or_intror Hx))).
    rewrite !digit_same by assumption. set (hi := Z.land (Z.shiftr b 4) 15) in *. set (lo := Z.land b 15) in *. clearbody hi lo. split.
    + intros <-. rewrite E. constructor; [apply hex_digit_of; lia..|]. apply IH. reflexivity.
    + intros H. remember (b :: h) as bl eqn:EB. destruct H as [|hi' lo' c d l t' D1 D2 HT]; [discriminate|]. injection EB as E1 ->.
      pose proof (hex_digit_range _ _ D1). pose proof (hex_digit_range _ _ D2). assert (hi' = hi /\ lo' = lo) as [-> ->] by (change (16 * hi' + lo' = b) in E1; clear - E E1 N1 N2 H H0; split; lia).
      rewrite (hex_digit_det _ _ _ D1 (hex_digit_of _ N1)), (hex_digit_det _ _ _ D2 (hex_digit_of _ N2)). f_equal. f_equal. apply IH. exact HT.
Qed.

Lemma ninsert_In f acc n : In n (ninsert f acc) <-> In n acc \/ n = f.
Proof.
  unfold ninsert. destruct (nmem f acc) eqn:E; [apply nmem_In in E; split; [auto|intros [H| ->]; auto]|]. rewrite in_app_iff. cbn [In]. intuition congruence.
Qed.
Lemma ninsert_NoDup f acc : NoDup acc -> NoDup (ninsert f acc).
Proof.
  intros N. unfold ninsert. destruct (nmem f acc) eqn:E; [exact N|]. rewrite <- (rev_involutive (acc ++ [f])). apply NoDup_rev. rewrite rev_app_distr. cbn [rev app].
  constructor; [|apply NoDup_rev, N]. intros H. apply in_rev in H. apply nmem_In in H. congruence.
Qed.
Lemma prefix_iff pre n : starts_with n pre = true <-> has_prefix pre n.
Proof. rewrite starts_with_spec. reflexivity. Qed.
Lemma names_fold bid recs : (forall n h x, In (n, Some h) recs -> In x h -> 0 <= x < 256) -> forall acc, NoDup acc ->
  NoDup (fold_left (build_id_step bid) recs acc) /\
  forall n, In n (fold_left (build_id_step bid) recs acc) <-> In n acc \/
    ((exists h, In (Some n, Some h) recs /\ hex_text h bid) /\ n <> [] /\ ~ has_prefix anon_hugepage n /\ ~ has_prefix anon_prefix n).
Proof.
  induction recs as [|[f h] recs IH]; intros Hb acc N; cbn [fold_left].
  { split; [exact N|]. intros n. split; [auto|]. intros [H|[[h [[] _]] _]]. exact H. }
  specialize (IH (fun n h x Hn => Hb n h x (or_intror Hn))).
  set (q := fun n : name => n <> [] /\ ~ has_prefix anon_hugepage n /\ ~ has_prefix anon_prefix n).
  assert (ST : (exists n h', f = Some n /\ h = Some h' /\ hex_text h' bid /\ q n /\ build_id_step bid acc (f, h) = ninsert n acc) \/
               ((forall n h', f = Some n -> h = Some h' -> hex_text h' bid -> ~ q n) /\ build_id_step bid acc (f, h) = acc)).
  { unfold build_id_step. destruct f as [f|]; [|right; split; [discriminate|reflexivity]]. destruct h as [h|]; [|right; split; [discriminate|reflexivity]].
    pose proof (hex_text_iff h (fun x Hx => Hb _ _ x (or_introl eq_refl) Hx) bid) as HX.
    destruct (name_eqb_spec (BinaryDataToAscii h) bid) as [E|E].
    - apply HX in E. destruct f as [|c f]; [right; split; [intros n h' En _ _ [Q _]; injection En as <-; congruence|reflexivity]|].
      destruct (starts_with (c :: f) anon_hugepage) eqn:P1; [right; split; [intros n h' En _ _ [_ [Q _]]; injection En as <-; apply Q, prefix_iff, P1|reflexivity]|].
      destruct (starts_with (c :: f) anon_prefix) eqn:P2; [right; split; [intros n h' En _ _ [_ [_ Q]]; injection En as <-; apply Q, prefix_iff, P2|reflexivity]|].
      left. exists (c :: f), h. split; [reflexivity|]. split; [reflexivity|]. split; [exact E|]. split; [|reflexivity].
      split; [discriminate|]. split; intros Q; apply prefix_iff in Q; congruence.
    - right. split; [|reflexivity]. intros n h' En Eh HT. injection Eh as <-. apply HX in HT. contradiction. }
  destruct ST as [[n0 [h0 [Ef [Eh [HT [Q ->]]]]]]|[NQ ->]].
  - destruct (IH _ (ninsert_NoDup n0 acc N)) as [I1 I2]. split; [exact I1|]. intros n. rewrite I2, ninsert_In. subst f h. split.
    + intros [[H| ->]|[[h [H1 H2]] Q']]; [auto|right; split; [exists h0; split; [left; reflexivity|exact HT]|exact Q]|right; split; [exists h; split; [right; exact H1|exact H2]|exact Q']].
    + intros [H|[[h [[H1|H1] H2]] Q']]; [auto|injection H1 as -> ->; auto|right; split; [eauto|exact Q']].
  - destruct (IH acc N) as [I1 I2]. split; [exact I1|]. intros n. rewrite I2. split.
    + intros [H|[[h' [H1 H2]] Q']]; [auto|right; split; [exists h'; split; [right; exact H1|exact H2]|exact Q']].
    + intros [H|[[h' [[H1|H1] H2]] Q']]; [auto|injection H1 as -> ->; exfalso; exact (NQ n h' eq_refl eq_refl H2 Q')|right; split; [eauto|exact Q']].
Qed.
Lemma get_names d bid : (forall n h x, In (n, Some h) (pf_build_ids d) -> In x h -> 0 <= x < 256) ->
  match GetBuildIdNames (pf_build_ids d) bid with
  | Some l => l <> [] /\ NoDup l /\ forall n, In n l <-> listed d bid n
  | None => forall n, ~ listed d bid n
  end.
Proof.
  intros Hb. destruct (names_fold bid (pf_build_ids d) Hb [] (NoDup_nil _)) as [I1 I2]. unfold GetBuildIdNames.
  destruct (fold_left (build_id_step bid) (pf_build_ids d) []) as [|n l].
  - intros n H. apply (proj2 (I2 n)). right. exact H.
  - split; [discriminate|]. split; [exact I1|]. intros n'. rewrite I2. split; [intros [[]|H]; exact H|intros H; right; exact H].
Qed.

(** The order of a set of names of one kind does not matter. *)
Lemma nmem_perm l l' x : Permutation l l' -> nmem x l = nmem x l'.
Proof. intros P. apply Bool.eq_true_iff_eq. rewrite !nmem_In. split; intros H; [exact (Permutation_in _ P H)|exact (Permutation_in _ (Permutation_sym P) H)]. Qed.
Lemma selector_perm ab fn l l' x : Permutation l l' -> (forall n n', In n l -> In n' l -> ab n = ab n') -> MMapSelector ab fn l x = MMapSelector ab fn l' x.
Proof.
  intros P A. pose proof (Permutation_length P) as L. destruct l as [|n l], l' as [|n' l']; try discriminate; [reflexivity|].
  unfold MMapSelector. rewrite L. destruct (length (n' :: l') =? 1)%nat eqn:E1.
  - destruct l' as [|]; [|discriminate]. destruct l as [|]; [|discriminate]. apply Permutation_length_1 in P. subst n'. reflexivity.
  - cbn [andb]. rewrite (A n n' (or_introl eq_refl) (Permutation_in _ (Permutation_sym P) (or_introl eq_refl))).
    destruct (ab n'); [apply nmem_perm, P|apply nmem_perm, Permutation_map, P].
Qed.
Lemma used_event_ext sel sel' ev : (forall x, sel x = sel' x) -> used_event sel ev = used_event sel' ev.
Proof. intros E. unfold used_event. destruct (ev_file ev) as [[|c f]|]; try reflexivity. rewrite E. reflexivity. Qed.
Lemma select_ext sel sel' evs : (forall x, sel x = sel' x) -> SelectMMaps sel evs = SelectMMaps sel' evs.
Proof.
  intros E. unfold SelectMMaps. assert (G : forall m, select_loop sel m evs = select_loop sel' m evs); [|rewrite G; reflexivity].
  induction evs as [|ev evs IH]; intros m; cbn [select_loop]; [reflexivity|]. unfold select_step. rewrite (used_event_ext _ _ ev E).
  destruct (used_event sel' ev) as [[pid e]|]; [|apply IH]. destruct (aget Z.eqb pid m); [destruct (check_entries _ _ _ _ _) as [[|]|]|]; try apply IH. reflexivity.
Qed.

(** A reader is made exactly for the profiles that can be used. *)
Section Reader.
  Context (W : world) (o : options) (bid : name) (d : profile).
  Hypothesis WG : world_good W.
  Hypothesis IDS : forall n h x, In (n, Some h) (pf_build_ids d) -> In x h -> 0 <= x < 256.
  Hypothesis ALIKE : forall ns n n', looked_for o bid d ns -> In n ns -> In n' ns -> w_absolute W n = w_absolute W n'.
  Lemma reader_names :
    match (match ResolveMmapName o with [] => match bid with [] => None | _ => GetBuildIdNames (pf_build_ids d) bid end | _ => Some [ResolveMmapName o] end) with
    | Some ns => looked_for o bid d ns /\ forall ns', looked_for o bid d ns' -> Permutation ns ns'
    | None => forall ns, ~ looked_for o bid d ns
    end.
  Proof.
    assert (RB : ResolveMmapName o = [] <-> (o_profiled o = Some [] \/ (o_profiled o = None /\ (o_ignore_build_id o = false \/ o_binary o = [])))).
    { unfold ResolveMmapName. destruct (o_profiled o) as [n|]; [split; [intros ->; auto|intros [E|[E _]]; [congruence|discriminate]]|].
      destruct (o_ignore_build_id o); cbn [negb]; split; [auto|intros [E|[_ [E|E]]]; [discriminate|discriminate|exact E]|auto|reflexivity]. }
    pose proof (get_names d bid IDS) as G. destruct (ResolveMmapName o) as [|c r] eqn:ER.
    - pose proof (proj1 RB eq_refl) as R. destruct bid as [|b bid'] eqn:EB.
      + intros ns L. inversion L as [n E1 E2 E3|E1 E2 E3 E4|ns' E1 E2 E3 E4 E5]; subst; [|destruct R as [R|[_ [R|R]]]; congruence|congruence].
        destruct R as [R|[R _]]; congruence.
      + rewrite <- EB in *. destruct (GetBuildIdNames (pf_build_ids d) bid) as [ns|].
        * destruct G as [G1 [G2 G3]]. assert (NB : bid <> []) by congruence. split; [exact (lf_build_id _ _ _ ns R NB G1 G2 G3)|].
          intros ns' L. inversion L as [n E1 E2 E3|E1 E2 E3 E4|ns'' E1 E2 E3 E4 E5]; subst ns'; [destruct R as [R|[R _]]; congruence|destruct R as [R|[_ [R|R]]]; congruence|].
          apply NoDup_Permutation; [assumption..|]. intros x. rewrite G3, E5. reflexivity.
        * intros ns L. inversion L as [n E1 E2 E3|E1 E2 E3 E4|ns' E1 E2 E3 E4 E5]; subst ns; [destruct R as [R|[R _]]; congruence|destruct R as [R|[_ [R|R]]]; congruence|].
          destruct ns' as [|x ns']; [congruence|]. apply (G x). apply E5. left. reflexivity.
    - assert (NR : ~ (o_profiled o = Some [] \/ (o_profiled o = None /\ (o_ignore_build_id o = false \/ o_binary o = [])))) by (intros R; apply RB in R; discriminate).
      unfold ResolveMmapName in ER. destruct (o_profiled o) as [n|] eqn:EP.
      + subst n. split; [constructor 1; [exact EP|discriminate]|].
        intros ns' L. inversion L as [n E1 E2 E3|E1 E2 E3 E4|ns'' E1 E2 E3 E4 E5]; subst ns'; [rewrite EP in E1; injection E1 as <-; reflexivity|congruence|].
        destruct E1 as [E1|[E1 _]]; congruence.
      + destruct (o_ignore_build_id o) eqn:EI; [|discriminate]. cbn [negb] in ER. rewrite <- ER in *. split; [constructor 2; [exact EP|exact EI|congruence]|].
        intros ns' L. inversion L as [n E1 E2 E3|E1 E2 E3 E4|ns'' E1 E2 E3 E4 E5]; subst ns'; [congruence|reflexivity|].
        destruct E1 as [E1|[_ [E1|E1]]]; congruence.
  Qed.
  Lemma reader_ok m : BuildPerfDataReader W bid (Some d) (ResolveMmapName o) = inl m <-> used_with W o bid d m.
  Proof.
    unfold BuildPerfDataReader, used_with. pose proof reader_names as RN.
    destruct (match ResolveMmapName o with [] => match bid with [] => None | _ => GetBuildIdNames (pf_build_ids d) bid end | _ => Some [ResolveMmapName o] end) as [ns|].
    - destruct RN as [L U]. rewrite (select_ext _ (MMapSelector (w_absolute W) (w_filename W) ns)).
      + split.
        * intros H. exists ns. split; [exact L|]. destruct (SelectMMaps _ _); [congruence|discriminate].
        * intros [ns' [L' H]]. rewrite (select_ext _ (MMapSelector (w_absolute W) (w_filename W) ns')); [rewrite H; reflexivity|].
          intros x. apply selector_perm; [apply U, L'|]. intros n n'. apply ALIKE, L.
      + intros x. apply selector_perm; [apply (wg_names _ WG)|]. intros n n' Hn Hn'. apply (ALIKE ns); [exact L|apply (Permutation_in _ (wg_names _ WG ns)); assumption ..].
    - split; [discriminate|]. intros [ns [L _]]. destruct (RN ns L).
  Qed.
End Reader.

(** * The loop over the profiles *)
Section Loop.
  Context {A : Type} (W : world) (o : options) (bid : name) (agg : mmaps -> profile -> A -> A).
  Hypothesis WG : world_good W.
  Lemma loop_ok files : ids_good W files -> names_alike W o bid files -> forall fuel stats r, (length files < fuel)%nat ->
    ((exists f, In f files /\ ~ readable W f) /\ profile_loop W bid (ResolveMmapName o) agg fuel files stats r = inr ERead) \/
    ((forall f, In f files -> readable W f) /\ exists us, usable_among W o bid files us /\
     profile_loop W bid (ResolveMmapName o) agg fuel files stats r =
       inl (PStats (ps_mmaps stats + total (fun u => zlen (snd u)) us) (ps_parsed stats + zlen us) (ps_counters stats), fold_left (fun r u => agg (snd u) (fst u) r) us r)).
  Proof.
    induction files as [|f files IH]; intros IG NA fuel stats r Hf; destruct fuel as [|fuel]; cbn [length] in Hf; try lia; cbn [profile_loop GetNext].
    - right. split; [intros f []|]. exists []. split; [constructor|]. cbn [total fold_left]. unfold zlen. cbn [length Z.of_nat]. rewrite !Z.add_0_r. destruct stats; reflexivity.
    - destruct (w_file W f) as [c|] eqn:EF; [|left; split; [exists f; split; [left; reflexivity|unfold readable; congruence]|reflexivity]].
      assert (IG' : ids_good W files) by (intros g d n h x Hg; apply (IG g d n h x (or_intror Hg))). assert (NA' : names_alike W o bid files) by (intros g d ns n n' Hg; apply (NA g d ns n n' (or_intror Hg))).
      specialize (IH IG' NA' fuel).
      assert (RD : readable W f) by (unfold readable; congruence).
      assert (CASES : (exists d m, c = Some d /\ BuildPerfDataReader W bid c (ResolveMmapName o) = inl m /\ usable W o bid f d m) \/
                      ((match BuildPerfDataReader W bid c (ResolveMmapName o), c with inl _, Some _ => False | _, _ => True end) /\ forall d m, ~ usable W o bid f d m)).
      { destruct c as [d|]; [|right; split; [exact Logic.I|intros d m [E _]; congruence]].
        assert (RO : forall m, BuildPerfDataReader W bid (Some d) (ResolveMmapName o) = inl m <-> used_with W o bid d m).
        { intros m. apply reader_ok; [exact WG| |]; [intros n h x Hn; apply (IG f d n h x (or_introl eq_refl) EF Hn)|intros ns n n' L; apply (NA f d ns n n' (or_introl eq_refl) EF L)]. }
        destruct (BuildPerfDataReader W bid (Some d) (ResolveMmapName o)) as [m|e] eqn:E.
        - left. exists d, m. split; [reflexivity|]. split; [reflexivity|]. split; [exact EF|]. apply RO. reflexivity.
        - right. split; [exact Logic.I|]. intros d' m [E' U]. assert (d' = d) by congruence. subst d'. apply RO in U. discriminate. }
      destruct CASES as [[d [m [-> [E U]]]]|[E NU]].
      + rewrite E. destruct (IH (PStats (ps_mmaps stats + zlen m) (ps_parsed stats + 1) (ps_counters stats)) (agg m d r) ltac:(lia)) as [[[g [Hg NR]] EL]|[AR [us [UA EL]]]].
        * left. split; [exists g; split; [right; exact Hg|exact NR]|exact EL].
        * right. split; [intros g [<-|Hg]; auto|]. exists ((d, m) :: us). split; [constructor; assumption|]. rewrite EL. cbn [ps_mmaps ps_parsed ps_counters total fold_left fst snd].
          f_equal. f_equal. f_equal; [lia|]. unfold zlen. cbn [length]. lia.
      + assert (EQ : (match BuildPerfDataReader W bid c (ResolveMmapName o), c with
              | inl m, Some d => profile_loop W bid (ResolveMmapName o) agg fuel files (PStats (ps_mmaps stats + zlen m) (ps_parsed stats + 1) (ps_counters stats)) (agg m d r)
              | _, _ => profile_loop W bid (ResolveMmapName o) agg fuel files stats r end) = profile_loop W bid (ResolveMmapName o) agg fuel files stats r).
        { destruct (BuildPerfDataReader W bid c (ResolveMmapName o)), c; try reflexivity. destruct E. }
        rewrite EQ. destruct (IH stats r ltac:(lia)) as [[[g [Hg NR]] EL]|[AR [us [UA EL]]]].
        * left. split; [exists g; split; [right; exact Hg|exact NR]|exact EL].
        * right. split; [intros g [<-|Hg]; auto|]. exists us. split; [constructor 3; assumption|exact EL].
  Qed.
End Loop.

(** * Counters *)
Definition good_map {K} (ok : K -> Prop) (m : list (K * Z)) : Prop := NoDup (map fst m) /\ forall c, In c m -> 0 < snd c /\ ok (fst c).
Lemma total_perm {A} (g : A -> Z) l l' : Permutation l l' -> total g l = total g l'.
Proof. induction 1; cbn [total]; lia. Qed.
Lemma total_app {A} (g : A -> Z) l l' : total g (l ++ l') = total g l + total g l'.
Proof. induction l as [|x l IH]; cbn [app total]; lia. Qed.
Section Maps.
  Context {K : Type} (eqb : K -> K -> bool) (eqb_spec : forall a b, reflect (a = b) (eqb a b)).
  Lemma aset_cases k v (m : list (K * Z)) c : In c (aset eqb k v m) -> In c m \/ c = (k, v).
  Proof.
    induction m as [|[k' v'] m IH]; cbn [aset In]; [intros [H|[]]; auto|]. destruct (eqb_spec k k') as [->|H].
    - intros [E|E]; auto.
    - intros [E|E]; [auto|]. destruct (IH E); auto.
  Qed.
  Lemma cget_nonneg ok k m : good_map ok m -> 0 <= cget eqb k m.
  Proof.
    intros [_ P]. unfold cget. destruct (aget eqb k m) as [v|] eqn:E; [|lia]. apply (aget_In eqb eqb_spec) in E. destruct (P _ E). cbn [snd] in *. lia.
  Qed.
  Lemma cinc_good (ok : K -> Prop) k m : good_map ok m -> ok k -> good_map ok (cinc eqb k m).
  Proof.
    intros G Hk. pose proof (cget_nonneg ok k m G) as N. destruct G as [N1 P]. split; [exact (NoDup_akeys_aset eqb eqb_spec k _ m N1)|].
    intros c Hc. apply aset_cases in Hc as [Hc| ->]; [exact (P c Hc)|]. cbn [fst snd]. split; [lia|exact Hk].
  Qed.
  Lemma count_in_cget cs k : NoDup (map fst cs) -> count_in eqb cs k = cget eqb k cs.
  Proof.
    unfold count_in, cget. induction cs as [|[k' v] cs IH]; intros N; cbn [total aget fst snd map]; [reflexivity|]. cbn [map fst] in N. inversion N as [|? ? N1 N2]; subst.
    rewrite (IH N2). destruct (eqb_spec k' k) as [->|E]; destruct (eqb_spec k k) as [_|E']; try congruence.
    - assert (aget eqb k cs = None) as -> by (apply (aget_None_iff eqb eqb_spec); exact N1). lia.
    - destruct (eqb_spec k k'); [congruence|lia].
  Qed.
  Lemma counts_perm cs cs' e : Permutation cs' cs -> counts eqb cs e -> counts eqb cs' e.
  Proof.
    intros P [C1 C2 C3]. constructor.
    - exact (Permutation_NoDup (Permutation_map fst (Permutation_sym P)) C1).
    - intros c Hc. apply C2. exact (Permutation_in _ P Hc).
    - intros k. unfold count_in. rewrite (total_perm _ _ _ P). apply C3.
  Qed.
  Lemma good_counts ok m e : good_map ok m -> (forall k, cget eqb k m = e k) -> counts eqb m e.
  Proof. intros [N P] H. constructor; [exact N|intros c Hc; apply (P c Hc)|]. intros k. rewrite count_in_cget by exact N. apply H. Qed.
End Maps.

Definition word2 (k : Z * Z) : Prop := word (fst k) /\ word (snd k).
Lemma kInvalid_word : word kInvalid.
Proof. unfold word, kInvalid, w64. lia. Qed.
Lemma segment_loop_word ker off l : forall first, word (segment_loop ker off first l).
Proof.
  induction l as [|s l IH]; intros first; cbn [segment_loop]; [exact kInvalid_word|]. cbv zeta. match goal with |- context [if ?b then _ else _] => destruct b end; [unfold word, u64; apply Z.mod_pos_bound; reflexivity|apply IH].
Qed.
Lemma translate_word m bn pid a : word a -> word (RuntimeAddressToBinaryAddress m bn pid a).
Proof.
  intros H. unfold RuntimeAddressToBinaryAddress. destruct (aget Z.eqb pid m) as [l|]; [|exact kInvalid_word]. destruct (find_mmap a l) as [e|]; [|exact kInvalid_word].
  cbv zeta. destruct (negb _ && negb _); [exact H|apply segment_loop_word].
Qed.
Definition samples_words (l : list sample) : Prop := forall s e, In s l -> In e (sa_stack s) -> word2 e.
Lemma lbr_loop_good tr (TR : forall a, word a -> word (tr a)) l : forall last r, (forall e, In e l -> word2 e) -> word last ->
  good_map word2 (fst r) -> good_map word2 (snd r) -> good_map word2 (fst (lbr_loop tr last l r)) /\ good_map word2 (snd (lbr_loop tr last l r)).
Proof.
  induction l as [|[f t] l IH]; intros last [br ft] HW HL G1 G2; cbn [lbr_loop]; [auto|]. destruct (HW (f, t) (or_introl eq_refl)) as [W1 W2]. cbn [fst snd] in *.
  apply IH; [intros e He; apply HW; right; exact He|apply TR, W2| |]; cbn [fst snd].
  - apply (cinc_good _ addr2_eqb_spec); [exact G1|split; apply TR; assumption].
  - match goal with |- context [if ?b then _ else _] => destruct b end; [apply (cinc_good _ addr2_eqb_spec); [exact G2|split; [exact HL|apply TR, W1]]|exact G2].
Qed.
Lemma lbr_good m bn l : forall r, samples_words l -> good_map word2 (fst r) -> good_map word2 (snd r) ->
  good_map word2 (fst (AggregateLBR m bn l r)) /\ good_map word2 (snd (AggregateLBR m bn l r)).
Proof.
  unfold AggregateLBR. induction l as [|s l IH]; intros r SW G1 G2; cbn [fold_left]; [auto|]. apply IH; [intros x e Hx; apply SW; right; exact Hx| |];
    (destruct (sample_pid m s) as [pid|]; [|assumption]); apply lbr_loop_good; try assumption; try exact kInvalid_word; try (intros a; apply translate_word); intros e He; apply (SW s e (or_introl eq_refl)); apply in_rev, He.
Qed.
Lemma lbr_counts m bn l k r :
  cget addr2_eqb k (fst (AggregateLBR m bn l r)) = cget addr2_eqb k (fst r) + branch_samples bn k (Profile [] [] l [], m) /\
  cget addr2_eqb k (snd (AggregateLBR m bn l r)) = cget addr2_eqb k (snd r) + range_samples bn k (Profile [] [] l [], m).
Proof. destruct r as [br ft]. destruct (C40_lbr m bn l br ft k) as [E1 E2]. split; [exact E1|exact E2]. Qed.
Lemma lbr_all bn us k : forall r,
  cget addr2_eqb k (fst (fold_left (fun r u => AggregateLBR (snd u) bn (pf_samples (fst u)) r) us r)) = cget addr2_eqb k (fst r) + total (branch_samples bn k) us /\
  cget addr2_eqb k (snd (fold_left (fun r u => AggregateLBR (snd u) bn (pf_samples (fst u)) r) us r)) = cget addr2_eqb k (snd r) + total (range_samples bn k) us.
Proof.
  induction us as [|[d m] us IH]; intros r; cbn [fold_left total fst snd]; [lia|]. destruct (IH (AggregateLBR m bn (pf_samples d) r)) as [-> ->].
  destruct (lbr_counts m bn (pf_samples d) k r) as [-> ->].
  change (branch_samples bn k (Profile [] [] (pf_samples d) [], m)) with (branch_samples bn k (d, m)). change (range_samples bn k (Profile [] [] (pf_samples d) [], m)) with (range_samples bn k (d, m)). lia.
Qed.
Lemma lbr_all_good bn us : (forall u, In u us -> samples_words (pf_samples (fst u))) -> forall r, good_map word2 (fst r) -> good_map word2 (snd r) ->
  good_map word2 (fst (fold_left (fun r u => AggregateLBR (snd u) bn (pf_samples (fst u)) r) us r)) /\ good_map word2 (snd (fold_left (fun r u => AggregateLBR (snd u) bn (pf_samples (fst u)) r) us r)).
Proof.
  induction us as [|u us IH]; intros H r G1 G2; cbn [fold_left]; [auto|]. destruct (lbr_good (snd u) bn (pf_samples (fst u)) r (H u (or_introl eq_refl)) G1 G2). apply IH; auto. intros x Hx. apply H. right. exact Hx.
Qed.

Definition spe_words (l : list spe_record) : Prop := forall s, In s l -> word (sr_ip s) /\ word (sr_target s).
Lemma spe_good m bn l : forall r, spe_words l -> good_map word2 (fst r) -> good_map word (snd r) ->
  good_map word2 (fst (AggregateSpe m bn l r)) /\ good_map word (snd (AggregateSpe m bn l r)).
Proof.
  unfold AggregateSpe. induction l as [|s l IH]; intros r SW G1 G2; cbn [fold_left]; [auto|]. destruct (SW s (or_introl eq_refl)) as [W1 W2].
  assert (X : good_map word2 (fst (spe_step m bn r s)) /\ good_map word (snd (spe_step m bn r s))).
  { unfold spe_step. cbv zeta. destruct (aget Z.eqb _ m); [|auto]. destruct (negb _ || negb _); [auto|]. destruct (sr_cond s && sr_not_taken s); cbn [fst snd]; (split; [|try assumption]); try assumption.
    - apply (cinc_good _ Z.eqb_spec); [exact G2|apply translate_word, W1].
    - apply (cinc_good _ addr2_eqb_spec); [exact G1|split; apply translate_word; assumption]. }
  destruct X as [X1 X2]. apply IH; [intros x Hx; apply SW; right; exact Hx|exact X1|exact X2].
Qed.
Lemma spe_process_same m s : spe_process m s = spe_counts m s.
Proof.
  unfold spe_process, spe_counts. destruct (mapped m kKernelPid) eqn:E; destruct (sr_retired s), (sr_branch s); cbn [andb negb orb]; try rewrite ?E; try reflexivity;
    try (destruct (mapped m (u32 (sr_pid s))); reflexivity).
Qed.
Lemma count_ext {A} (p q : A -> bool) l : (forall x, p x = q x) -> count p l = count q l.
Proof. intros H. unfold count. f_equal. apply filter_ext. exact H. Qed.
Lemma spe_all bn us : forall r,
  (forall k, cget addr2_eqb k (fst (fold_left (fun r u => AggregateSpe (snd u) bn (pf_spe (fst u)) r) us r)) = cget addr2_eqb k (fst r) + total (taken_samples bn k) us) /\
  (forall a, cget Z.eqb a (snd (fold_left (fun r u => AggregateSpe (snd u) bn (pf_spe (fst u)) r) us r)) = cget Z.eqb a (snd r) + total (not_taken_samples bn a) us).
Proof.
  induction us as [|[d m] us IH]; intros r; cbn [fold_left total fst snd]; [split; intros; lia|]. destruct (IH (AggregateSpe m bn (pf_spe d) r)) as [I1 I2]. clear IH.
  destruct r as [tk nt]. destruct (C40_spe m bn (pf_spe d) tk nt) as [S1 S2]. split; intros k.
  - rewrite I1, S1. unfold taken_samples at 2. cbn [fst snd]. rewrite <- Z.add_assoc. f_equal. f_equal. apply count_ext. intros s. rewrite spe_process_same. destruct (spe_counts m s); reflexivity.
  - rewrite I2, S2. unfold not_taken_samples at 2. cbn [fst snd]. rewrite <- Z.add_assoc. f_equal. f_equal. apply count_ext. intros s. rewrite spe_process_same. destruct (spe_counts m s); reflexivity.
Qed.
Lemma spe_all_good bn us : (forall u, In u us -> spe_words (pf_spe (fst u))) -> forall r, good_map word2 (fst r) -> good_map word (snd r) ->
  good_map word2 (fst (fold_left (fun r u => AggregateSpe (snd u) bn (pf_spe (fst u)) r) us r)) /\ good_map word (snd (fold_left (fun r u => AggregateSpe (snd u) bn (pf_spe (fst u)) r) us r)).
Proof.
  induction us as [|u us IH]; intros H r G1 G2; cbn [fold_left]; [auto|]. destruct (spe_good (snd u) bn (pf_spe (fst u)) r (H u (or_introl eq_refl)) G1 G2). apply IH; auto. intros x Hx. apply H. right. exact Hx.
Qed.
Lemma good_nil {K} (ok : K -> Prop) : good_map ok [].
Proof. split; [constructor|intros c []]. Qed.

(** * Statistics *)
Lemma conv_int_add a b : conv_int (conv_int a + b) = conv_int (a + b).
Proof.
  unfold conv_int. f_equal. replace ((a + 2 ^ 31) mod 2 ^ 32 - 2 ^ 31 + b + 2 ^ 31) with ((a + 2 ^ 31) mod 2 ^ 32 + b) by lia.
  rewrite Zplus_mod_idemp_l. f_equal. lia.
Qed.
Lemma number_sum (cs : list ((Z * Z) * Z)) : forall z, fold_left (fun cnt v => conv_int (cnt + snd v)) cs (conv_int z) = conv_int (z + total snd cs).
Proof.
  induction cs as [|c cs IH]; intros z; cbn [fold_left total]; [f_equal; lia|]. rewrite conv_int_add, IH. f_equal. lia.
Qed.
Lemma number_total cs : number_of_counters cs = conv_int (total snd cs).
Proof. unfold number_of_counters. change 0 with (conv_int 0) at 1. rewrite number_sum. f_equal. Qed.

Lemma by_source_ok cs : let step := fun m (c : (Z * Z) * Z) => if fst (fst c) =? kInvalid then m else aset Z.eqb (fst (fst c)) (cget Z.eqb (fst (fst c)) m + snd c) m in
  forall m, NoDup (map fst m) -> NoDup (map fst (fold_left step cs m)) /\
  (forall a, In a (map fst (fold_left step cs m)) <-> In a (map fst m) \/ (a <> kInvalid /\ exists to w, In (a, to, w) cs)) /\
  (forall (P : Z -> bool), total (fun p => if P (fst p) then snd p else 0) (fold_left step cs m) =
     total (fun p => if P (fst p) then snd p else 0) m + total (fun c => if negb (fst (fst c) =? kInvalid) && P (fst (fst c)) then snd c else 0) cs).
Proof.
  intros step. induction cs as [|[[f t] w] cs IH]; intros m N; cbn [fold_left].
  { split; [exact N|]. split; [|intros P; cbn [total]; lia]. intros a. split; [auto|]. intros [H|[_ [to [w []]]]]. exact H. }
  assert (SE : step m (f, t, w) = if f =? kInvalid then m else aset Z.eqb f (cget Z.eqb f m + w) m) by reflexivity. rewrite SE. clear SE. destruct (Z.eqb_spec f kInvalid) as [->|NE].
  - destruct (IH m N) as [I1 [I2 I3]]. split; [exact I1|]. split.
    + intros a. rewrite I2. split; [intros [H|[H1 [to [w' H2]]]]; [auto|right; split; [exact H1|exists to, w'; right; exact H2]]|].
      intros [H|[H1 [to [w' [H2|H2]]]]]; [auto|congruence|right; eauto].
    + intros P. rewrite I3. cbn [total fst snd]. rewrite Z.eqb_refl. cbn [negb andb]. lia.
  - destruct (IH _ (NoDup_akeys_aset Z.eqb Z.eqb_spec f (cget Z.eqb f m + w) m N)) as [I1 [I2 I3]]. split; [exact I1|]. split.
    + intros a. rewrite I2. pose proof (In_akeys_aset Z.eqb Z.eqb_spec f a (cget Z.eqb f m + w) m) as IA. unfold akeys in IA. rewrite IA. clear IA. split.
      * intros [[-> |H]|[H1 [to [w' H2]]]]; [right; split; [exact NE|exists t, w; left; reflexivity]|auto|right; split; [exact H1|exists to, w'; right; exact H2]].
      * intros [H|[H1 [to [w' [H2|H2]]]]]; [auto|injection H2 as -> -> ->; auto|right; eauto].
    + intros P. rewrite I3. cbn [total fst snd]. destruct (Z.eqb_spec f kInvalid); [contradiction|]. cbn [negb andb].
      assert (AS : total (fun p => if P (fst p) then snd p else 0) (aset Z.eqb f (cget Z.eqb f m + w) m) = total (fun p => if P (fst p) then snd p else 0) m + (if P f then w else 0)); [|lia].
      clear - N. unfold cget. induction m as [|[k v] m IHm]; cbn [aset aget total fst snd]; [destruct (P f); lia|]. cbn [map fst] in N. inversion N as [|? ? N1 N2]; subst.
      destruct (Z.eqb_spec f k) as [->|H]; cbn [total fst snd]; [destruct (P k); lia|]. rewrite (IHm N2). lia.
Qed.
Definition is_class (x y : option bool) : bool := match x, y with None, None => true | Some a, Some b => Bool.eqb a b | _, _ => false end.
Definition class_stat (r : dstats) (x : option bool) : stat := match x with None => ds_could_not r | Some true => ds_may r | Some false => ds_cant r end.
Lemma check_all dis l x : forall r,
  st_absolute (class_stat (fold_left (check_one dis) l r) x) = st_absolute (class_stat r x) + count (fun a => is_class (dis a) x) (map fst l) /\
  st_weighted (class_stat (fold_left (check_one dis) l r) x) = st_weighted (class_stat r x) + total (fun p => if is_class (dis (fst p)) x then snd p else 0) l.
Proof.
  induction l as [|[a w] l IH]; intros r; cbn [fold_left map total]; [unfold count; cbn; lia|]. destruct (IH (check_one dis r (a, w))) as [-> ->]. rewrite count_cons. cbn [fst snd]. unfold check_one. cbn [fst snd].
  destruct (dis a) as [[|]|], x as [[|]|]; cbn [is_class Bool.eqb class_stat ds_could_not ds_may ds_cant Increment st_absolute st_weighted]; lia.
Qed.
