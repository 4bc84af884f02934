(** C56, continued: examples, and what selective flattening loses. *)
From Verif Require Import Base AssocFold SymbolModel SymbolSpec FlattenModel FlattenSpec FlattenHeadProps
  HybridModel HybridSpec HybridMoreProps FlatProfSpec FlatProfProps.

Lemma h_locs n s : In (n, s) (functions h_src) -> locs_ok s.
Proof.
  assert (L : forall l : Z, l < 100 -> l < 2 ^ 64 - 1) by (intros; lia).
  intros [E|[E|[]]].
  - assert (s = h_main) as -> by congruence. constructor; cbn [h_main s_pos s_calls akeys map fst]; [intros x [<-|[]]; reflexivity|].
    intros e c [X|[X|[]]]; [assert (e = (5, [104]) /\ c = h_h) as [-> ->] by (split; congruence)|assert (e = (6, [100]) /\ c = h_d) as [-> ->] by (split; congruence)]; (split; [reflexivity|]).
    + constructor; cbn [h_h s_pos s_calls akeys map fst]; [intros x [<-|[]]; reflexivity|]. intros e c [X'|[]]. assert (e = (3, [99]) /\ c = h_c) as [-> ->] by (split; congruence). split; [reflexivity|].
      constructor; cbn [h_c s_pos s_calls akeys map fst]; [intros x [<-|[]]; reflexivity|intros ? ? []].
    + constructor; cbn [h_d s_pos s_calls akeys map fst]; [intros x [<-|[]]; reflexivity|intros ? ? []].
  - assert (s = h_out) as -> by congruence. constructor; cbn [h_out s_pos s_calls akeys map fst]; [intros x [<-|[]]; reflexivity|intros ? ? []].
Qed.
(** main inlines h (which inlines c) and d; c also exists outlined. *)
Example C56_nonvacuous : smap_ok h_src /\ (forall n s, In (n, s) (functions h_src) -> locs_ok s) /\
  match BuildFlatProfile false 0 h_src (SMap [] []) 0 0 with
  | Ok (m, nt, nf) =>
      nt = 2 /\ nf = 2 /\ length (sm_names m) = 4%nat /\
      match sm_find m [109], sm_find m [104], sm_find m [99], sm_find m [100] with
      | Some a, Some h, Some c, Some d =>
          (* h is entered 56 times, c 3 times outlined and 4 times inlined *)
          s_head a = 7 /\ target_at a [] 5 [104] = 56 /\ count_at a [] 5 = 56 /\ target_at a [] 6 [100] = 9 /\ s_total a = 86 /\
          s_head h = 56 /\ target_at h [] 3 [99] = 4 /\ s_total h = 60 /\ s_head c = 7 /\ count_at c [] 1 = 14 /\ s_total c = 14 /\ s_head d = 9
      | _, _, _, _ => False
      end
  | _ => False
  end /\
  match BuildFlatProfile true 20 h_src (SMap [] []) 0 0 with
  | Ok (m, nt, nf) => nt = 2 /\ nf = 1 /\ length (sm_names m) = 2%nat
  | _ => False
  end.
Proof. split; [exact h_src_ok|]. split; [exact h_locs|]. split; vm_compute; repeat split; reflexivity. Qed.

(** Selective flattening drops the samples of callees inlined in functions
    below the threshold: a function with samples in the source need not be in
    the result at all. *)
Theorem C56_selective_keeps_functions_refuted :
  ~ (forall thr src m nt nf, smap_ok src -> BuildFlatProfile true thr src (SMap [] []) 0 0 = Ok (m, nt, nf) ->
       forall F, copies_of F src <> [] -> sm_find m F <> None).
Proof.
  intros H. destruct (BuildFlatProfile true 1000 h_src (SMap [] []) 0 0) as [[[m nt] nf]| |] eqn:E; [|vm_compute in E; discriminate E|vm_compute in E; discriminate E].
  apply (H 1000 h_src m nt nf h_src_ok E [104]); [vm_compute; discriminate|].
  assert (V : match BuildFlatProfile true 1000 h_src (SMap [] []) 0 0 with Ok (m, _, _) => sm_find m [104] | _ => None end = None) by (vm_compute; reflexivity).
  rewrite E in V. exact V.
Qed.
Print Assumptions C56_selective_keeps_functions_refuted.
