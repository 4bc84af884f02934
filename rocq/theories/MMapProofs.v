(** Proofs about memory-map selection and translation. *)
From Verif Require Import Base SymbolModel MMapModel MMapSpec.

Definition conf (a b : mmap_entry) : bool :=
  negb ((u64 (mm_addr a + mm_size a) <=? mm_addr b) || (u64 (mm_addr b + mm_size b) <=? mm_addr a)).
Lemma conf_sym a b : conf a b = conf b a.
Proof. unfold conf. rewrite orb_comm. reflexivity. Qed.
Lemma conf_region a a' b : region a = region a' -> conf a b = conf a' b.
Proof. unfold region, conf. intros H. injection H as -> -> _. reflexivity. Qed.
Definition same (a b : mmap_entry) : bool :=
  (mm_addr a =? mm_addr b) && (mm_size a =? mm_size b) && (mm_pgoff a =? mm_pgoff b).
Lemma same_region a b : same a b = true <-> region a = region b.
Proof.
  unfold same, region. split.
  - intros H. assert (mm_addr a = mm_addr b /\ mm_size a = mm_size b /\ mm_pgoff a = mm_pgoff b) as [-> [-> ->]] by lia. reflexivity.
  - intros H; injection H as -> -> ->. rewrite !Z.eqb_refl. reflexivity.
Qed.

Lemma check_ok e l : forall b r, check_entries (mm_addr e) (mm_size e) (mm_pgoff e) l b = Some r ->
  r = b || existsb (fun x => same x e) l /\ forall x, In x l -> region x = region e \/ conf e x = false.
Proof.
  induction l as [|x l IH]; intros b r; cbn [check_entries existsb].
  - intros H; injection H as <-. rewrite orb_false_r. split; [reflexivity|intros ? []].
  - change ((mm_addr x =? mm_addr e) && (mm_size x =? mm_size e) && (mm_pgoff x =? mm_pgoff e)) with (same x e).
    destruct (same x e) eqn:S0.
    + intros H. apply IH in H as [-> H]. split; [rewrite orb_true_r; reflexivity|].
      intros y [<-|Hy]; [left; apply same_region; exact S0|auto].
    + fold (conf e x). destruct (conf e x) eqn:C; [discriminate|]. intros H. apply IH in H as [-> H].
      split; [reflexivity|]. intros y [<-|Hy]; auto.
Qed.
Lemma check_conflict e l : forall b, check_entries (mm_addr e) (mm_size e) (mm_pgoff e) l b = None ->
  exists x, In x l /\ region x <> region e /\ conf e x = true.
Proof.
  induction l as [|x l IH]; intros b; cbn [check_entries]; [discriminate|].
  change ((mm_addr x =? mm_addr e) && (mm_size x =? mm_size e) && (mm_pgoff x =? mm_pgoff e)) with (same x e).
  destruct (same x e) eqn:S0.
  - intros H. apply IH in H as [y [Hy H]]. exists y. split; [right; exact Hy|exact H].
  - fold (conf e x). destruct (conf e x) eqn:C.
    + intros _. exists x. split; [left; reflexivity|]. split; [|exact C]. intros E. apply same_region in E. congruence.
    + intros H. apply IH in H as [y [Hy H]]. exists y. split; [right; exact Hy|exact H].
Qed.

Lemma In_emplace e s x : (forall y, In y s -> region y <> region e) -> In x (mm_emplace e s) <-> x = e \/ In x s.
Proof.
  induction s as [|y s IH]; cbn [mm_emplace In]; intros H; [intuition congruence|].
  destruct (mm_ltb e y) eqn:E1; cbn [In]; [intuition congruence|].
  destruct (mm_ltb y e) eqn:E2; cbn [In].
  - rewrite IH by (intros; apply H; right; assumption). intuition congruence.
  - exfalso. apply (H y (or_introl eq_refl)). unfold mm_ltb in *. unfold region.
    destruct (Z.eqb_spec (mm_addr e) (mm_addr y)) as [Ea|]; cbn [negb] in *.
    2: { destruct (Z.eqb_spec (mm_addr y) (mm_addr e)); cbn [negb] in *; lia. }
    rewrite Ea, Z.eqb_refl in E2. cbn [negb] in E2.
    destruct (Z.eqb_spec (mm_size e) (mm_size y)) as [Es|]; cbn [negb] in *.
    2: { destruct (Z.eqb_spec (mm_size y) (mm_size e)); cbn [negb] in *; lia. }
    rewrite Es, Z.eqb_refl in E2. cbn [negb] in E2.
    destruct (Z.eqb_spec (mm_pgoff e) (mm_pgoff y)) as [Ep|]; cbn [negb] in *.
    2: { destruct (Z.eqb_spec (mm_pgoff y) (mm_pgoff e)); cbn [negb] in *; lia. }
    congruence.
Qed.

Lemma used_event_spec sel ev pid e : used_event sel ev = Some (pid, e) <-> maps_event sel ev pid e.
Proof.
  unfold used_event, maps_event. destruct e as [a n o f]. cbn [mm_addr mm_size mm_pgoff mm_file].
  destruct (ev_file ev) as [g|]; [|intuition congruence].
  destruct (ev_start ev) as [s|]; [|intuition congruence].
  destruct (ev_len ev) as [l|]; [|intuition congruence].
  destruct (ev_pid ev) as [p|]; [|intuition congruence].
  destruct g as [|c g]; [split; [discriminate|]; intros H; exfalso; intuition congruence|].
  destruct (sel (c :: g)) eqn:E.
  - split.
    + intros H; injection H as <- <- <- <- <-. repeat split; auto. discriminate.
    + intros [H1 [H2 [H3 [H4 [_ [_ ->]]]]]]. congruence.
  - split; [discriminate|]. intros H; exfalso; intuition congruence.
Qed.

(** ** The loop *)
Definition known (sel : name -> bool) (done : list mmap_event) (pid : Z) (e : mmap_entry) : Prop :=
  exists ev, In ev done /\ maps_event sel ev pid e.
Record inv (sel : name -> bool) (done : list mmap_event) (m : mmaps) : Prop := {
  inv_from : forall pid e, In e (maps_of m pid) -> known sel done pid e;
  inv_all : forall pid e, known sel done pid e -> exists e', In e' (maps_of m pid) /\ region e' = region e;
  inv_conf : forall pid a b, In a (maps_of m pid) -> In b (maps_of m pid) -> a = b \/ (region a <> region b /\ conf a b = false);
  inv_ne : forall pid l, aget Z.eqb pid m = Some l -> l <> []
}.

Lemma known_snoc sel done ev pid e :
  known sel (done ++ [ev]) pid e <-> known sel done pid e \/ maps_event sel ev pid e.
Proof.
  unfold known. split.
  - intros [x [Hx H]]. apply in_app_or in Hx as [Hx|[<-|[]]]; [left; eauto|right; exact H].
  - intros [[x [Hx H]]|H]; [exists x; split; [apply in_or_app; auto|exact H]|exists ev; split; [apply in_or_app; right; left; reflexivity|exact H]].
Qed.

Lemma maps_of_aset m pid l p : maps_of (aset Z.eqb pid l m) p = if p =? pid then l else maps_of m p.
Proof.
  unfold maps_of. rewrite (aget_aset Z.eqb Z.eqb_spec). destruct (p =? pid); reflexivity.
Qed.

Lemma inv_step sel done m ev m' : inv sel done m -> select_step sel m ev = inl m' -> inv sel (done ++ [ev]) m'.
Proof.
  intros I. unfold select_step. destruct (used_event sel ev) as [[pid e]|] eqn:U.
  2: { intros H; injection H as <-. 
       assert (N : forall p x, ~ maps_event sel ev p x) by (intros p x H; apply used_event_spec in H; congruence).
       destruct I as [I1 I2 I3 I4]. constructor; auto.
       - intros p x Hx. apply known_snoc. left. auto.
       - intros p x Hx. apply known_snoc in Hx as [Hx|Hx]; [auto|destruct (N _ _ Hx)]. }
  apply used_event_spec in U.
  assert (EU : forall p x, maps_event sel ev p x -> p = pid /\ x = e).
  { intros p x H. apply used_event_spec in H, U. rewrite H in U. injection U as -> ->. auto. }
  destruct I as [I1 I2 I3 I4].
  destruct (aget Z.eqb pid m) as [ex|] eqn:G.
  - assert (EX : maps_of m pid = ex) by (unfold maps_of; rewrite G; reflexivity).
    destruct (check_entries _ _ _ ex false) as [[|]|] eqn:C; [| |discriminate]; apply check_ok in C as [C1 C2]; cbn [orb] in C1; intros H; injection H as <-.
    + symmetry in C1. apply existsb_exists in C1 as [x [Hx Sx]]. apply same_region in Sx.
      constructor; auto.
      * intros p y Hy. apply known_snoc. left. auto.
      * intros p y Hy. apply known_snoc in Hy as [Hy|Hy]; [auto|]. destruct (EU _ _ Hy) as [-> ->].
        exists x. rewrite EX. auto.
    + assert (ND : forall y, In y ex -> region y <> region e).
      { intros y Hy E. assert (existsb (fun x => same x e) ex = true) by (apply existsb_exists; exists y; split; [exact Hy|apply same_region; exact E]). congruence. }
      constructor.
      * intros p y Hy. rewrite maps_of_aset in Hy. destruct (Z.eqb_spec p pid) as [->|].
        -- apply In_emplace in Hy as [->|Hy]; [|apply known_snoc; left; apply I1; rewrite EX; exact Hy|exact ND].
           apply known_snoc. right. exact U.
        -- apply known_snoc. left. auto.
      * intros p y Hy. rewrite maps_of_aset. apply known_snoc in Hy as [Hy|Hy].
        -- destruct (I2 _ _ Hy) as [z [Hz Ez]]. destruct (Z.eqb_spec p pid) as [->|]; [|eauto].
           exists z. split; [|exact Ez]. apply In_emplace; [exact ND|]. right. rewrite <- EX. exact Hz.
        -- destruct (EU _ _ Hy) as [-> ->]. rewrite Z.eqb_refl. exists e. split; [|reflexivity].
           apply In_emplace; [exact ND|]. left. reflexivity.
      * intros p a b. rewrite maps_of_aset. destruct (Z.eqb_spec p pid) as [->|]; [|apply I3].
        rewrite !In_emplace by exact ND. intros [->|Ha] [->|Hb].
        -- left; reflexivity.
        -- right. split; [intros E; apply (ND b Hb); congruence|]. destruct (C2 b Hb) as [E|E]; [destruct (ND b Hb E)|exact E].
        -- right. split; [exact (ND a Ha)|]. rewrite conf_sym. destruct (C2 a Ha) as [E|E]; [destruct (ND a Ha E)|exact E].
        -- apply (I3 pid); rewrite EX; assumption.
      * intros p l. rewrite (aget_aset Z.eqb Z.eqb_spec). destruct (p =? pid); [|apply I4].
        intros H; injection H as <-. intros E. assert (In e (mm_emplace e ex)) by (apply In_emplace; auto). rewrite E in H. destruct H.
  - assert (EX : maps_of m pid = []) by (unfold maps_of; rewrite G; reflexivity).
    intros H; injection H as <-. constructor.
    + intros p y Hy. rewrite maps_of_aset in Hy. apply known_snoc. destruct (Z.eqb_spec p pid) as [->|]; [|left; auto].
      destruct Hy as [<-|[]]. right. exact U.
    + intros p y Hy. rewrite maps_of_aset. apply known_snoc in Hy as [Hy|Hy].
      * destruct (I2 _ _ Hy) as [z [Hz Ez]]. destruct (Z.eqb_spec p pid) as [->|]; [rewrite EX in Hz; destruct Hz|eauto].
      * destruct (EU _ _ Hy) as [-> ->]. rewrite Z.eqb_refl. exists e. split; [left|]; reflexivity.
    + intros p a b. rewrite maps_of_aset. destruct (Z.eqb_spec p pid) as [->|]; [|apply I3].
      intros [<-|[]] [<-|[]]. left; reflexivity.
    + intros p l. rewrite (aget_aset Z.eqb Z.eqb_spec). destruct (p =? pid); [|apply I4].
      intros H; injection H as <-. discriminate.
Qed.

Lemma inv_nil sel : inv sel [] [].
Proof.
  constructor.
  - intros pid e [].
  - intros pid e [ev [[] _]].
  - intros pid a b [].
  - intros pid l H; discriminate.
Qed.
Lemma step_conflict sel done m ev : inv sel done m -> select_step sel m ev = inr Conflict ->
  exists pid a b, known sel (done ++ [ev]) pid a /\ known sel (done ++ [ev]) pid b /\ region a <> region b /\ conf a b = true.
Proof.
  intros I. unfold select_step. destruct (used_event sel ev) as [[pid e]|] eqn:U; [|discriminate].
  destruct (aget Z.eqb pid m) as [ex|] eqn:G; [|discriminate].
  destruct (check_entries _ _ _ ex false) as [[|]|] eqn:C; [discriminate..|]. intros _.
  apply check_conflict in C as [x [Hx [Hr Hc]]]. apply used_event_spec in U.
  exists pid, e, x. split; [apply known_snoc; right; exact U|]. split; [|split; [congruence|exact Hc]].
  apply known_snoc. left. apply (inv_from _ _ _ I). unfold maps_of. rewrite G. exact Hx.
Qed.
Lemma select_step_err sel m ev e : select_step sel m ev = inr e -> e = Conflict.
Proof.
  unfold select_step. destruct (used_event sel ev) as [[pid x]|]; [|discriminate].
  destruct (aget Z.eqb pid m) as [ex|]; [|discriminate].
  destruct (check_entries _ _ _ ex false) as [[|]|]; congruence.
Qed.
Lemma known_incl sel d d' pid e : (forall x, In x d -> In x d') -> known sel d pid e -> known sel d' pid e.
Proof. intros H [ev [Hv He]]. exists ev. auto. Qed.
Lemma loop_ok sel evs : forall done m m', inv sel done m -> select_loop sel m evs = inl m' -> inv sel (done ++ evs) m'.
Proof.
  induction evs as [|ev evs IH]; intros done m m' I; cbn [select_loop].
  - intros H; injection H as <-. rewrite app_nil_r. exact I.
  - destruct (select_step sel m ev) as [m1|] eqn:E; [|discriminate]. intros H.
    apply (IH (done ++ [ev]) m1 m') in H; [|eapply inv_step; eauto]. rewrite <- app_assoc in H. exact H.
Qed.
Lemma loop_err sel evs : forall done m e, inv sel done m -> select_loop sel m evs = inr e ->
  e = Conflict /\ exists pid a b, known sel (done ++ evs) pid a /\ known sel (done ++ evs) pid b /\ region a <> region b /\ conf a b = true.
Proof.
  induction evs as [|ev evs IH]; intros done m e I; cbn [select_loop]; [discriminate|].
  destruct (select_step sel m ev) as [m1|x] eqn:E.
  - intros H. apply (IH (done ++ [ev])) in H; [|eapply inv_step; eauto]. rewrite <- app_assoc in H. exact H.
  - intros H; injection H as <-. assert (x = Conflict) by (eapply select_step_err; eauto). subst x. split; [reflexivity|].
    destruct (step_conflict _ _ _ _ I E) as [pid [a [b [Ha [Hb H]]]]]. exists pid, a, b.
    assert (IN : forall x, In x (done ++ [ev]) -> In x (done ++ ev :: evs)).
    { intros x Hx. apply in_app_or in Hx as [Hx|[<-|[]]]; apply in_or_app; [auto|right; left; reflexivity]. }
    split; [eapply known_incl; eauto|]. split; [eapply known_incl; eauto|exact H].
Qed.
(** Two conflicting events make the loop fail. *)
Lemma inv_noconf sel done m pid a b : inv sel done m -> known sel done pid a -> known sel done pid b ->
  region a <> region b -> conf a b = false.
Proof.
  intros I Ha Hb Hr. destruct (inv_all _ _ _ I _ _ Ha) as [a' [Ia Ea]]. destruct (inv_all _ _ _ I _ _ Hb) as [b' [Ib Eb]].
  destruct (inv_conf _ _ _ I pid a' b' Ia Ib) as [E|[_ E]]; [congruence|].
  rewrite <- E, <- (conf_region a' a b Ea), (conf_sym a' b), (conf_sym a' b'), (conf_region b' b a' Eb). reflexivity.
Qed.

(** ** Coverage *)
Lemma covers_iff e a : 0 <= mm_addr e < w64 -> 0 <= mm_size e < w64 -> 0 <= a < w64 ->
  (mm_addr e <=? a) && (a <? u64 (mm_addr e + mm_size e)) = true <-> covers e a.
Proof.
  intros H1 H2 H3. unfold covers, u64. destruct (Z_lt_ge_dec (mm_addr e + mm_size e) w64).
  - rewrite Z.mod_small by lia. lia.
  - replace ((mm_addr e + mm_size e) mod w64) with (mm_addr e + mm_size e - w64); [lia|].
    symmetry. rewrite <- (Z.mod_add _ (-1)) by (unfold w64; lia).
    replace (mm_addr e + mm_size e + -1 * w64) with (mm_addr e + mm_size e - w64) by lia. apply Z.mod_small. lia.
Qed.
Lemma conf_overlap a b : 0 <= mm_addr a -> 0 <= mm_size a -> mm_addr a + mm_size a < w64 ->
  0 <= mm_addr b -> 0 <= mm_size b -> mm_addr b + mm_size b < w64 -> conf a b = true <-> overlap a b.
Proof. intros. unfold conf, overlap, u64. rewrite !Z.mod_small by lia. lia. Qed.
Lemma find_mmap_some a l : forall r0 e,
  fold_left (fun r p => if (mm_addr p <=? a) && (a <? u64 (mm_addr p + mm_size p)) then Some p else r) l r0 = Some e ->
  (In e l /\ (mm_addr e <=? a) && (a <? u64 (mm_addr e + mm_size e)) = true) \/ r0 = Some e.
Proof.
  induction l as [|x l IH]; intros r0 e; cbn [fold_left]; [auto|]. intros H. apply IH in H as [[H1 H2]|H].
  - left. split; [right; exact H1|exact H2].
  - destruct ((mm_addr x <=? a) && (a <? u64 (mm_addr x + mm_size x))) eqn:C; [|auto].
    injection H as ->. left. split; [left; reflexivity|exact C].
Qed.
Lemma find_mmap_none a l : forall r0,
  fold_left (fun r p => if (mm_addr p <=? a) && (a <? u64 (mm_addr p + mm_size p)) then Some p else r) l r0 = None ->
  r0 = None /\ forall e, In e l -> (mm_addr e <=? a) && (a <? u64 (mm_addr e + mm_size e)) = false.
Proof.
  induction l as [|x l IH]; intros r0; cbn [fold_left]; [intros ->; split; [reflexivity|intros ? []]|].
  intros H. apply IH in H as [H1 H2].
  destruct ((mm_addr x <=? a) && (a <? u64 (mm_addr x + mm_size x))) eqn:C; [discriminate|].
  split; [exact H1|]. intros e [<-|He]; auto.
Qed.

Definition in_seg (b off : Z) (s : segment) : Prop := sg_offset s - b <= off < sg_offset s - b + sg_memsz s.
Lemma segment_loop_spec k off b : 0 <= off < w64 -> 0 <= b -> (k = false -> b = 0) -> forall l first,
  (forall s, In s l -> 0 <= sg_memsz s /\ 0 <= sg_vaddr s /\ sg_offset s + sg_memsz s < w64 /\
                       sg_vaddr s + sg_memsz s < w64 /\ b <= sg_offset s) ->
  (k = true -> match first with Some f => f = b | None => match l with s :: _ => sg_offset s = b | [] => True end end) ->
  (exists before s after, l = before ++ s :: after /\ in_seg b off s /\ (forall x, In x before -> ~ in_seg b off x) /\
     segment_loop k off first l = off - (sg_offset s - b) + sg_vaddr s) \/
  (segment_loop k off first l = kInvalid /\ forall s, In s l -> ~ in_seg b off s).
Proof.
  intros Ho Hb Hk. induction l as [|s l IH]; intros first Hs Hf; cbn [segment_loop].
  - right. split; [reflexivity|intros ? []].
  - destruct (Hs s (or_introl eq_refl)) as [H1 [H2 [H3 [H4 H5]]]].
    assert (EO : (if k then match first with None => 0 | Some f => u64 (sg_offset s - f) end else sg_offset s) = sg_offset s - b).
    { destruct k; [|rewrite (Hk eq_refl); lia]. specialize (Hf eq_refl). destruct first as [f|]; subst; [|lia].
      unfold u64. apply Z.mod_small. lia. }
    rewrite EO. assert (EU : u64 (sg_offset s - b + sg_memsz s) = sg_offset s - b + sg_memsz s) by (apply Z.mod_small; lia).
    rewrite EU. destruct ((sg_offset s - b <=? off) && (off <? sg_offset s - b + sg_memsz s)) eqn:C.
    + left. exists [], s, l. split; [reflexivity|]. split; [unfold in_seg; lia|]. split; [intros ? []|].
      unfold u64. rewrite (Z.mod_small (off - _)) by lia. apply Z.mod_small. lia.
    + assert (NS : ~ in_seg b off s) by (unfold in_seg; lia).
      destruct (IH (match first with None => Some (sg_offset s) | Some f => Some f end)) as [[bf [x [af [E1 [E2 [E3 E4]]]]]]|[E1 E2]].
      * intros; apply Hs; right; assumption.
      * intros K. specialize (Hf K). destruct first as [f|]; auto.
      * left. exists (s :: bf), x, af. split; [rewrite E1; reflexivity|]. split; [exact E2|]. split; [|exact E4].
        intros y [<-|Hy]; auto.
      * right. split; [exact E1|]. intros y [<-|Hy]; auto.
Qed.
