(** * Processors that keep no state give the same results on equivalent heaps. *)
From Verif Require Export Iso PipelineRun.

(** Two programs that do the same whatever the addresses are.  Reading the
    environment is excluded. *)
Inductive prog_rel {A} : bij → prog A → prog A → Prop :=
| pr_ret b a : prog_rel b (Ret a) (Ret a)
| pr_put b key v1 v2 k1 k2 : orel (bp b) v1 v2 →
    (∀ b' o1 o2 err, sub b b' → orel (bp b') o1 o2 → prog_rel b' (k1 o1 err) (k2 o2 err)) →
    prog_rel b (PPut key v1 k1) (PPut key v2 k2)
| pr_tryput b key v1 v2 k1 k2 : orel (bp b) v1 v2 →
    (∀ b' o1 o2 err, sub b b' → orel (bp b') o1 o2 → prog_rel b' (k1 o1 err) (k2 o2 err)) →
    prog_rel b (PTryPut key v1 k1) (PTryPut key v2 k2)
| pr_get b key k1 k2 :
    (∀ b' o1 o2, sub b b' → orel (bp b') o1 o2 → prog_rel b' (k1 o1) (k2 o2)) →
    prog_rel b (PGet key k1) (PGet key k2)
| pr_delete b key k1 k2 :
    (∀ b' o1 o2, sub b b' → orel (bp b') o1 o2 → prog_rel b' (k1 o1) (k2 o2)) →
    prog_rel b (PDelete key k1) (PDelete key k2)
| pr_cancel b k1 k2 : prog_rel b k1 k2 → prog_rel b (PCancel k1) (PCancel k2)
| pr_drop b k1 k2 : prog_rel b k1 k2 → prog_rel b (PDrop k1) (PDrop k2)
| pr_new b v1 v2 k1 k2 : val_rel b v1 v2 →
    (∀ b' p1 p2, sub b b' → bp b' p1 p2 → prog_rel b' (k1 p1) (k2 p2)) →
    prog_rel b (PNew v1 k1) (PNew v2 k2)
| pr_newmap b k1 k2 :
    (∀ b' r1 r2, sub b b' → bm b' r1 r2 → prog_rel b' (k1 r1) (k2 r2)) →
    prog_rel b (PNewMap k1) (PNewMap k2)
| pr_load b p1 p2 k1 k2 : orel (bp b) p1 p2 →
    (∀ b' v1 v2, sub b b' → val_rel b' v1 v2 → prog_rel b' (k1 v1) (k2 v2)) →
    prog_rel b (PLoad p1 k1) (PLoad p2 k2)
| pr_store b p1 p2 v1 v2 k1 k2 : orel (bp b) p1 p2 → val_rel b v1 v2 → prog_rel b k1 k2 →
    prog_rel b (PStore p1 v1 k1) (PStore p2 v2 k2)
| pr_mapread b r1 r2 k1 k2 : orel (bm b) r1 r2 →
    (∀ b' m1 m2, sub b b' → map_rel b' m1 m2 → prog_rel b' (k1 m1) (k2 m2)) →
    prog_rel b (PMapRead r1 k1) (PMapRead r2 k2)
| pr_mapwrite b r1 r2 key v1 v2 k1 k2 : orel (bm b) r1 r2 → orel (bp b) v1 v2 → prog_rel b k1 k2 →
    prog_rel b (PMapWrite r1 key v1 k1) (PMapWrite r2 key v2 k2)
| pr_mapdelete b r1 r2 key k1 k2 : orel (bm b) r1 r2 → prog_rel b k1 k2 →
    prog_rel b (PMapDelete r1 key k1) (PMapDelete r2 key k2)
| pr_panic b : prog_rel b PPanic PPanic.

Lemma prog_rel_mono {A} b (c1 c2 : prog A) : prog_rel b c1 c2 → ∀ b', sub b b' → prog_rel b' c1 c2.
Proof.
  induction 1; intros bb Hs; constructor; auto;
    try (by eapply optr_mono); try (by eapply omap_mono); try (by eapply val_rel_mono);
    intros; eauto using sub_trans.
Qed.

(** ** Running *)
Definition world_rel (b : bij) (i1 i2 : nat) (w1 w2 : world) : Prop :=
  iso b (w_heap w1) (w_heap w2) ∧
  ∃ e1 e2, w_events w1 !! i1 = Some e1 ∧ w_events w2 !! i2 = Some e2 ∧ ev_rel b e1 e2.

Definition pe_rel (i1 i2 : nat) (pe1 pe2 : pevent) : Prop :=
  pe_data pe1 = Some i1 ∧ pe_data pe2 = Some i2 ∧ pe_cancelled pe1 = pe_cancelled pe2 ∧
  pe_dropped pe1 = pe_dropped pe2.

Definition res_rel {A} (b : bij) (i1 i2 : nat) (w1 w2 : world)
    (x y : Outcome (world * pevent * A)) : Prop :=
  out_rel (λ x y : world * pevent * A,
    x.2 = y.2 ∧ pe_rel i1 i2 x.1.2 y.1.2 ∧
    (∃ b', sub b b' ∧ world_rel b' i1 i2 x.1.1 y.1.1) ∧
    ∃ lg, w_log x.1.1 = w_log w1 ++ lg ∧ w_log y.1.1 = w_log w2 ++ lg) x y.

Lemma res_rel_sub {A} b b' i1 i2 w1 w2 w1' w2' lg (x y : Outcome (world * pevent * A)) :
  sub b b' → w_log w1' = w_log w1 ++ lg → w_log w2' = w_log w2 ++ lg →
  res_rel b' i1 i2 w1' w2' x y → res_rel b i1 i2 w1 w2 x y.
Proof.
  intros Hs Hl1 Hl2. unfold res_rel. destruct x as [[[wa pa] a]|], y as [[[wb pb] a']|]; simpl; try done.
  intros (-> & Hpe & (b2 & Hb2 & Hw) & lg' & H1 & H2). split_and!; [done|done| |].
  - exists b2. split; [by eapply sub_trans|done].
  - exists (lg ++ lg'). rewrite H1, H2, Hl1, Hl2, !app_assoc. done.
Qed.

Lemma res_rel_same {A} b b' i1 i2 w1 w2 w1' w2' (x y : Outcome (world * pevent * A)) :
  sub b b' → w_log w1' = w_log w1 → w_log w2' = w_log w2 →
  res_rel b' i1 i2 w1' w2' x y → res_rel b i1 i2 w1 w2 x y.
Proof. intros Hs H1 H2. apply (res_rel_sub b b' i1 i2 w1 w2 w1' w2' []); by rewrite ?app_nil_r. Qed.

Lemma world_rel_heap b b' i1 i2 w1 w2 h1 h2 :
  world_rel b i1 i2 w1 w2 → sub b b' → iso b' h1 h2 → world_rel b' i1 i2 (set_heap w1 h1) (set_heap w2 h2).
Proof.
  intros (_ & e1 & e2 & H1 & H2 & He) Hs Hi. split; [done|]. exists e1, e2.
  split_and!; [done|done|]. by eapply omap_mono.
Qed.

Lemma run_prog_rel {A} b (c1 c2 : prog A) : prog_rel b c1 c2 → ∀ i1 i2 w1 w2 pe1 pe2,
  world_rel b i1 i2 w1 w2 → pe_rel i1 i2 pe1 pe2 →
  res_rel b i1 i2 w1 w2 (run_prog c1 w1 pe1) (run_prog c2 w2 pe2).
Proof.
  assert (∀ i1 i2 w1 w2 pe1 pe2 b, world_rel b i1 i2 w1 w2 → pe_rel i1 i2 pe1 pe2 →
    ∃ e1 e2, evt_of w1 pe1 = Some (i1, e1) ∧ evt_of w2 pe2 = Some (i2, e2) ∧ ev_rel b e1 e2 ∧
      w_events w1 !! i1 = Some e1 ∧ w_events w2 !! i2 = Some e2) as Hevt.
  { intros i1 i2 w1 w2 pe1 pe2 bb (_ & e1 & e2 & H1 & H2 & He) (D1 & D2 & _). exists e1, e2.
    unfold evt_of. rewrite D1, D2, H1, H2. done. }
  assert (∀ b key ow v1 v2 i1 i2 w1 w2 pe1 pe2 (k1 k2 : option ptr → option goerr → prog A),
    world_rel b i1 i2 w1 w2 → pe_rel i1 i2 pe1 pe2 → orel (bp b) v1 v2 →
    (∀ b' o1 o2 err, sub b b' → orel (bp b') o1 o2 → ∀ i1 i2 w1 w2 pe1 pe2,
       world_rel b' i1 i2 w1 w2 → pe_rel i1 i2 pe1 pe2 →
       res_rel b' i1 i2 w1 w2 (run_prog (k1 o1 err) w1 pe1) (run_prog (k2 o2 err) w2 pe2)) →
    ∀ e1 e2, ev_rel b e1 e2 → w_events w1 !! i1 = Some e1 → w_events w2 !! i2 = Some e2 →
    res_rel b i1 i2 w1 w2
      (match put (w_heap w1) e1 key v1 ow with Panic => Panic | Ok r =>
         run_prog (k1 (put_old r) (put_err r))
           (mkWorld (put_heap r) (<[i1 := put_event r]> (w_events w1)) (w_env w1) (w_log w1)) pe1 end)
      (match put (w_heap w2) e2 key v2 ow with Panic => Panic | Ok r =>
         run_prog (k2 (put_old r) (put_err r))
           (mkWorld (put_heap r) (<[i2 := put_event r]> (w_events w2)) (w_env w2) (w_log w2)) pe2 end)) as Hput.
  { intros b0 key ow v1 v2 i1 i2 w1 w2 pe1 pe2 k1 k2 Hw Hpe Hv Hk e1 e2 He H1 H2.
    pose proof (iso_put b0 (w_heap w1) (w_heap w2) e1 e2 key v1 v2 ow (proj1 Hw) He Hv) as Hp.
    destruct (put (w_heap w1) _ _ _ _) as [r1|], (put (w_heap w2) _ _ _ _) as [r2|]; simpl in Hp; try done.
    destruct Hp as [(b' & Hs & Hi & He' & Ho) Herr]. rewrite Herr.
    eapply res_rel_same; [exact Hs| | |apply Hk]; try done. split; [done|].
    exists (put_event r1), (put_event r2). simpl.
    rewrite !list_lookup_insert by (by eapply lookup_lt_Some). done. }
  induction 1; intros i1 i2 w1 w2 pe1 pe2 Hw Hpe; cbn [run_prog].
  - split_and!; [done|done| |]. { exists b. split; [apply sub_refl|done]. } exists []. by rewrite !app_nil_r.
  - destruct (Hevt _ _ _ _ _ _ _ Hw Hpe) as (e1 & e2 & E1 & E2 & He & H1' & H2'). rewrite E1, E2.
    apply Hput; eauto.
  - destruct (Hevt _ _ _ _ _ _ _ Hw Hpe) as (e1 & e2 & E1 & E2 & He & H1' & H2'). rewrite E1, E2.
    apply Hput; eauto.
  - destruct (Hevt _ _ _ _ _ _ _ Hw Hpe) as (e1 & e2 & E1 & E2 & He & _). rewrite E1, E2.
    pose proof (iso_get_path b (w_heap w1) (w_heap w2) e1 e2 (keyToPath key) (proj1 Hw) He) as Hg.
    unfold Get. destruct (get_path _ e1 _) as [[h1 o1]|], (get_path _ e2 _) as [[h2 o2]|]; simpl in Hg; try done.
    destruct Hg as (b' & Hs & Hi & Ho). simpl in *.
    eapply res_rel_same; [exact Hs| | |eapply H0]; try done. by eapply world_rel_heap.
  - destruct (Hevt _ _ _ _ _ _ _ Hw Hpe) as (e1 & e2 & E1 & E2 & He & _). rewrite E1, E2.
    pose proof (iso_delete_path b (w_heap w1) (w_heap w2) e1 e2 (keyToPath key) (proj1 Hw) He) as Hg.
    unfold EvDelete. destruct (delete_path _ e1 _) as [[h1 o1]|], (delete_path _ e2 _) as [[h2 o2]|]; simpl in Hg; try done.
    destruct Hg as (b' & Hs & Hi & Ho). simpl in *.
    eapply res_rel_same; [exact Hs| | |eapply H0]; try done. by eapply world_rel_heap.
  - apply IHprog_rel; [done|]. destruct Hpe as (?&?&?&?). done.
  - apply IHprog_rel; [done|]. destruct Hpe as (?&?&?&?). done.
  - destruct (iso_alloc_val b (w_heap w1) (w_heap w2) v1 v2 (proj1 Hw) H) as (Hi & Hs & Hp).
    destruct (alloc_val (w_heap w1) v1) as [h1 p1], (alloc_val (w_heap w2) v2) as [h2 p2]. simpl in Hi, Hp.
    eapply res_rel_same; [exact Hs| | |eapply H1]; try done. by eapply world_rel_heap.
  - destruct (iso_alloc_map b (w_heap w1) (w_heap w2) (proj1 Hw)) as (Hi & Hs & Hp).
    destruct (alloc_map (w_heap w1)) as [h1 r1], (alloc_map (w_heap w2)) as [h2 r2]. simpl in Hi, Hp.
    eapply res_rel_same; [exact Hs| | |eapply H0]; try done. by eapply world_rel_heap.
  - pose proof (iso_deref b (w_heap w1) (w_heap w2) p1 p2 (proj1 Hw) H) as Hd.
    destruct (deref (w_heap w1) p1), (deref (w_heap w2) p2); simpl in Hd; try done.
    apply H1; [apply sub_refl|done|done|done].
  - destruct p1 as [p1|], p2 as [p2|]; simpl in H; try done.
    destruct (proj1 (iso_bounds _ _ _ (proj1 Hw)) _ _ H) as [L1 L2].
    destruct (decide (p1 < _)), (decide (p2 < _)); try done.
    eapply res_rel_same; [apply sub_refl| | |apply IHprog_rel]; try done.
    eapply world_rel_heap; [done|apply sub_refl|]. apply iso_set_val; [apply Hw|done|done].
  - apply H1; [apply sub_refl| |done|done]. apply iso_map_of; [apply Hw|done].
  - pose proof (iso_map_write b (w_heap w1) (w_heap w2) r1 r2 key v1 v2 (proj1 Hw) H H0) as Hm.
    destruct (map_write (w_heap w1) r1 key v1), (map_write (w_heap w2) r2 key v2); simpl in Hm; try done.
    eapply res_rel_same; [apply sub_refl| | |apply IHprog_rel]; try done.
    eapply world_rel_heap; [done|apply sub_refl|done].
  - eapply res_rel_same; [apply sub_refl| | |apply IHprog_rel]; try done.
    eapply world_rel_heap; [done|apply sub_refl|]. apply iso_map_delete; [apply Hw|done].
  - done.
Qed.

(** ** Pipelines *)
Lemma run_list_rel b l : Forall (λ p, ∀ b' i1 i2 w1 w2 pe1 pe2, sub b b' →
      world_rel b' i1 i2 w1 w2 → pe_rel i1 i2 pe1 pe2 →
      res_rel b' i1 i2 w1 w2 (pp_process p w1 pe1) (pp_process p w2 pe2)) l →
  ∀ b' i1 i2 w1 w2 pe1 pe2 err, sub b b' → world_rel b' i1 i2 w1 w2 → pe_rel i1 i2 pe1 pe2 →
    res_rel b' i1 i2 w1 w2 (run_list pp_process l w1 pe1 err) (run_list pp_process l w2 pe2 err).
Proof.
  induction 1 as [|p l Hp _ IH]; intros b' i1 i2 w1 w2 pe1 pe2 err Hs Hw Hpe; cbn [run_list].
  { split_and!; [done|done| |]. { exists b'. split; [apply sub_refl|done]. } exists []. by rewrite !app_nil_r. }
  specialize (Hp b' i1 i2 w1 w2 pe1 pe2 Hs Hw Hpe).
  destruct (pp_process p w1 pe1) as [[[wa pa] ra]|], (pp_process p w2 pe2) as [[[wb pb] rb]|]; simpl in Hp; try done.
  destruct Hp as (Hr & Hpe' & (b2 & Hs2 & Hw2) & lg & Hl1 & Hl2). simpl in *. subst rb. destruct ra as [e|].
  - split_and!; [done|done|by eexists|by eexists].
  - eapply res_rel_sub; [exact Hs2|exact Hl1|exact Hl2|]. apply IH; [by eapply sub_trans|done|done].
Qed.

Lemma world_rel_inc b i1 i2 w1 w2 id m :
  world_rel b i1 i2 w1 w2 → world_rel b i1 i2 (inc w1 id m) (inc w2 id m).
Proof. done. Qed.

Lemma pp_process_rel b p : Forall (λ q, prog_rel b (p_prog q) (p_prog q)) (pp_all p) →
  ∀ b' i1 i2 w1 w2 pe1 pe2, sub b b' → world_rel b' i1 i2 w1 w2 → pe_rel i1 i2 pe1 pe2 →
  res_rel b' i1 i2 w1 w2 (pp_process p w1 pe1) (pp_process p w2 pe2).
Proof.
  induction p as [id cond ignf ignm onf c IH] using pproc_ind'. rewrite pp_all_eq.
  intros [Hc Honf]%Forall_cons b' i1 i2 w1 w2 pe1 pe2 Hs Hw Hpe. cbn [pp_process]. simpl in Hc.
  assert (∀ b' i1 i2 w1 w2 pe1 pe2 err, sub b b' → world_rel b' i1 i2 w1 w2 → pe_rel i1 i2 pe1 pe2 →
    res_rel b' i1 i2 w1 w2 (run_list pp_process onf w1 pe1 err) (run_list pp_process onf w2 pe2 err)) as Hl.
  { apply run_list_rel. clear -IH Honf. induction onf as [|q l IHl]; [constructor|].
    rewrite pps_all_cons, Forall_app in Honf. destruct Honf as [Hq Honf].
    apply Forall_cons in IH as [IHq IH]. constructor; [by apply IHq|by apply IHl]. }
  pose proof (run_prog_rel b' c c (prog_rel_mono _ _ _ Hc _ Hs) i1 i2 (inc w1 id MIn) (inc w2 id MIn)
    pe1 pe2 Hw Hpe) as Hr.
  destruct (run_prog c (inc w1 id MIn) pe1) as [[[wa pa] ra]|], (run_prog c (inc w2 id MIn) pe2) as [[[wb pb] rb]|];
    simpl in Hr; try done.
  destruct Hr as (Hr & Hpe' & (b2 & Hs2 & Hw2) & lg & Hl1 & Hl2). simpl in *. subst rb.
  rewrite <-app_assoc in Hl1, Hl2. simpl in Hl1, Hl2.
  assert (∀ m, ∃ lg', w_log wa ++ [(id, m)] = w_log w1 ++ lg' ∧ w_log wb ++ [(id, m)] = w_log w2 ++ lg') as Hlog.
  { intros m. eexists. rewrite Hl1, Hl2, <-!app_assoc. done. }
  destruct ra as [e|].
  2:{ split_and!; [done|done| |by apply Hlog]. exists b2. by split. }
  assert (pe_dropped pa = pe_dropped pb) as Hd by apply Hpe'. rewrite Hd. destruct (pe_dropped pb).
  { split_and!; [done|done| |by apply Hlog]. exists b2. by split. }
  destruct (ignm && is_missing e).
  { split_and!; [done|done| |by apply Hlog]. exists b2. by split. }
  specialize (Hl b2 i1 i2 wa wb pa pb (Some e) (sub_trans _ _ _ Hs Hs2) Hw2 Hpe').
  destruct (run_list _ onf wa _ _) as [[[wc pc] rc]|], (run_list _ onf wb _ _) as [[[wd pd] rd]|];
    simpl in Hl; try done.
  destruct Hl as (Hr & Hpe2 & (b3 & Hs3 & Hw3) & lg2 & Hl3 & Hl4). simpl in *. subst rd.
  assert (∀ m, ∃ lg', w_log wc ++ [(id, m)] = w_log w1 ++ lg' ∧ w_log wd ++ [(id, m)] = w_log w2 ++ lg') as Hlog2.
  { intros m. eexists. rewrite Hl3, Hl4, Hl1, Hl2, <-!app_assoc. done. }
  assert (sub b' b3) as Hs' by (by eapply sub_trans).
  destruct (ignf && _); (split_and!; [done|done| |by apply Hlog2]; exists b3; by split).
Qed.

Lemma Process_rel b pl i1 i2 w1 w2 :
  Forall (λ q, prog_rel b (p_prog q) (p_prog q)) (pl_all pl) →
  world_rel b i1 i2 w1 w2 →
  out_rel (λ x y : world * option nat * option goerr,
    x.2 = y.2 ∧ (x.1.2 = None ↔ y.1.2 = None) ∧
    (∃ b', sub b b' ∧ world_rel b' i1 i2 x.1.1 y.1.1) ∧
    ∃ lg, w_log x.1.1 = w_log w1 ++ lg ∧ w_log y.1.1 = w_log w2 ++ lg)
    (Process pl w1 (Some i1)) (Process pl w2 (Some i2)).
Proof.
  intros Hall Hw. apply Forall_app in Hall as [Hall1 Hall2].
  assert (∀ l, Forall (λ q, prog_rel b (p_prog q) (p_prog q)) (pps_all l) →
    ∀ b' i1 i2 w1 w2 pe1 pe2 err, sub b b' → world_rel b' i1 i2 w1 w2 → pe_rel i1 i2 pe1 pe2 →
    res_rel b' i1 i2 w1 w2 (run_list pp_process l w1 pe1 err) (run_list pp_process l w2 pe2 err)) as Hl.
  { intros l Hl. apply run_list_rel. clear -Hl. induction l as [|q l IHl]; [constructor|].
    rewrite pps_all_cons, Forall_app in Hl. destruct Hl as [Hq Hl].
    constructor; [by apply pp_process_rel|by apply IHl]. }
  unfold Process, pl_process.
  assert (pe_rel i1 i2 (mkPEvent (Some i1) false false) (mkPEvent (Some i2) false false)) as Hpe by done.
  pose proof (Hl _ Hall1 b i1 i2 w1 w2 _ _ None (sub_refl b) Hw Hpe) as Hr.
  destruct (run_list _ (pl_processors pl) w1 _ _) as [[[wa pa] ra]|],
    (run_list _ (pl_processors pl) w2 _ _) as [[[wb pb] rb]|]; simpl in Hr; try done.
  destruct Hr as (Hr & Hpe' & (b2 & Hs2 & Hw2) & lg & Hl1 & Hl2). simpl in *. subst rb.
  destruct ra as [e|].
  2:{ destruct Hpe' as (D1 & D2 & _ & D3). rewrite D3.
      destruct (pe_dropped pb); simpl; (split_and!; [done| |by eexists|by eexists]); [done|].
      by rewrite D1, D2. }
  pose proof (Hl _ Hall2 b2 i1 i2 wa wb pa pb (Some e) Hs2 Hw2 Hpe') as Hr.
  destruct (run_list _ (pl_onf pl) wa _ _) as [[[wc pc] rc]|],
    (run_list _ (pl_onf pl) wb _ _) as [[[wd pd] rd]|]; simpl in Hr; try done.
  destruct Hr as (Hr & Hpe2 & (b3 & Hs3 & Hw3) & lg2 & Hl3 & Hl4). simpl in *. subst rd.
  assert (∃ lg', w_log wc = w_log w1 ++ lg' ∧ w_log wd = w_log w2 ++ lg') as Hlog.
  { eexists. rewrite Hl3, Hl4, Hl1, Hl2, <-!app_assoc. done. }
  assert (∃ b', sub b b' ∧ world_rel b' i1 i2 wc wd) as Hb.
  { exists b3. split; [by eapply sub_trans|done]. }
  destruct rc as [e'|]; [simpl; by split_and!|].
  destruct Hpe2 as (D1 & D2 & _ & D3). rewrite D3.
  destruct (pe_dropped pd); simpl; (split_and!; [done| |done|done]); [done|].
  by rewrite D1, D2.
Qed.
