(** * Workers that make events and process them, in any interleaving. *)
From Verif Require Export ConcIso.

(** ** Pools of workers *)
(** [pool pls w0 s jobs results]: starting in world [w0] without goroutines, state [s]
    can be reached by starting goroutines, by letting an idle goroutine make a new
    event [k] holding some fields [m] and call Process with it on a pipeline [pl] of
    [pls] (then [jobs] gets the entry [(k, pl, m)]), and by letting goroutines that are
    inside Process take a step; when that step returns from Process with result [res],
    [results] gets the entry [(k, res)].  Latest entries first. *)
Inductive pool (pls : list pipeline) (w0 : world) :
  cstate → list (nat * pipeline * gomap tree) → list (nat * (option nat * option goerr)) → Prop :=
| po_init : pool pls w0 (mkC w0 []) [] []
| po_spawn w ts jobs results :
    pool pls w0 (mkC w ts) jobs results →
    pool pls w0 (mkC w (ts ++ [TIdle None])) jobs results
| po_feed w ts jobs results i res pl m w' k :
    pool pls w0 (mkC w ts) jobs results →
    ts !! i = Some (TIdle res) → pl ∈ pls → new_event w m = (w', k) →
    pool pls w0 (mkC w' (<[i := tstart pl (Some k)]> ts)) ((k, pl, m) :: jobs) results
| po_move w ts jobs results i k pe c st w' t' :
    pool pls w0 (mkC w ts) jobs results →
    ts !! i = Some (TRun (Some k) pe c st) → tstep w (Some k) pe c st = (w', t') →
    pool pls w0 (mkC w' (<[i := t']> ts)) jobs
      (match t' with TIdle (Some res) => (k, res) :: results | _ => results end).

(** ** Proofs *)
(** *** One step of a goroutine *)
Section own.
Context (C : list ptr).

Definition proc_ok (p : pproc) : Prop :=
  Forall (λ q, stateless C (p_prog q) ∧ gentle (p_prog q)) (pp_all p).
Definition frame_ok (f : frame) : Prop :=
  match f with
  | FProc _ _ _ onf => Forall proc_ok onf
  | FHandlers _ _ rest => Forall proc_ok rest
  | FMain onf rest => Forall proc_ok onf ∧ Forall proc_ok rest
  | FGlobal rest => Forall proc_ok rest
  end.
Definition ctl_rel (b : bij) (w2 : world) (pe2 : pevent) (c1 c2 : ctl) : Prop :=
  match c1, c2 with
  | CEnter p, CEnter q => p = q ∧ proc_ok p
  | CProg p, CProg q => prog_rel b p q ∧ calm q w2 pe2
  | CRet r, CRet r' => r = r'
  | CLoop r, CLoop r' => r = r'
  | _, _ => False
  end.
Definition thread_rel (b : bij) (i1 i2 : nat) (w2 : world) (t1 t2 : thread) : Prop :=
  match t1, t2 with
  | TRun e1 pe1 c1 st1, TRun e2 pe2 c2 st2 =>
      e1 = Some i1 ∧ e2 = Some i2 ∧ pe_rel i1 i2 pe1 pe2 ∧ ctl_rel b w2 pe2 c1 c2 ∧ st1 = st2 ∧ Forall frame_ok st1
  | TIdle (Some r1), TIdle (Some r2) => r1.2 = r2.2 ∧ r1.1 = match r2.1 with Some _ => Some i1 | None => None end
  | TPanic _, TPanic _ => True
  | _, _ => False
  end.

Definition tstep_result (b : bij) (i1 i2 : nat) (w1 w2 : world) (x y : world * thread) : Prop :=
  ∃ b' lg, owned b (w_heap w1) b' (w_heap x.1) ∧ (∀ j, j ≠ i1 → w_events x.1 !! j = w_events w1 !! j) ∧
    w_log x.1 = w_log w1 ++ lg ∧ w_log y.1 = w_log w2 ++ lg ∧ world_rel b' i1 i2 x.1 y.1 ∧
    thread_rel b' i1 i2 y.1 x.2 y.2.

Lemma proc_ok_inv id cond ignf ignm onf p : proc_ok (PProc id cond ignf ignm onf p) →
  stateless C p ∧ gentle p ∧ Forall proc_ok onf.
Proof.
  unfold proc_ok. rewrite pp_all_eq, Forall_cons. intros [[H1 H2] H]. split_and!; [done|done|].
  clear -H. induction onf as [|q l IH]; [constructor|].
  rewrite pps_all_cons, Forall_app in H. destruct H as [Hq H]. constructor; [done|by apply IH].
Qed.

Lemma tstep_own b i1 i2 w1 w2 pe1 pe2 c1 c2 st1 st2 :
  sub (cells C) b → world_rel b i1 i2 w1 w2 →
  thread_rel b i1 i2 w2 (TRun (Some i1) pe1 c1 st1) (TRun (Some i2) pe2 c2 st2) →
  tstep_result b i1 i2 w1 w2 (tstep w1 (Some i1) pe1 c1 st1) (tstep w2 (Some i2) pe2 c2 st2).
Proof.
  intros Hsub Hw (_ & _ & Hpe & Hc & <- & Hst).
  assert (∀ t1 t2, thread_rel b i1 i2 w2 t1 t2 → tstep_result b i1 i2 w1 w2 (w1, t1) (w2, t2)) as Hsame.
  { intros t1 t2 Ht. exists b, []. simpl. rewrite !app_nil_r. split_and!; try done. apply owned_refl. }
  assert (∀ id m t1 t2, thread_rel b i1 i2 (inc w2 id m) t1 t2 →
    tstep_result b i1 i2 w1 w2 (inc w1 id m, t1) (inc w2 id m, t2)) as Hinc.
  { intros id m t1 t2 Ht. exists b, [(id, m)]. simpl. split_and!; try done. apply owned_refl. }
  assert (∀ w st (r : option goerr), Forall frame_ok st → thread_rel b i1 i2 w (TRun (Some i1) pe1 (CRet r) st) (TRun (Some i2) pe2 (CRet r) st)) as Hret by done.
  assert (∀ w st (r : option goerr), Forall frame_ok st → thread_rel b i1 i2 w (TRun (Some i1) pe1 (CLoop r) st) (TRun (Some i2) pe2 (CLoop r) st)) as Hloop by done.
  assert (∀ w st p, proc_ok p → Forall frame_ok st →
    thread_rel b i1 i2 w (TRun (Some i1) pe1 (CEnter p) st) (TRun (Some i2) pe2 (CEnter p) st)) as Henter by done.
  assert (pe_dropped pe1 = pe_dropped pe2) as Hd by apply Hpe.
  destruct c1 as [p|p1|r|r], c2 as [p'|p2|r'|r']; simpl in Hc; try done.
  - destruct Hc as [<- Hp]. destruct p as [id cond ignf ignm onf p]. cbn [tstep].
    apply proc_ok_inv in Hp as (H1 & H2 & H3). apply Hinc. cbn [thread_rel ctl_rel].
    split_and!; try done; [|by constructor]. exact (prog_rel_mono _ _ _ H1 _ Hsub).
  - destruct Hc as [Hp Hcalm].
    pose proof (prog_step_own b p1 p2 Hp i1 i2 w1 w2 pe1 pe2 Hw Hpe Hcalm) as Hstep.
    assert ((∃ r, p1 = Ret r ∧ p2 = Ret r) ∨
      (tstep w1 (Some i1) pe1 (CProg p1) st1 = match prog_step p1 w1 pe1 with
        | Panic => (w1, TPanic st1) | Ok (w', pe', p') => (w', TRun (Some i1) pe' (CProg p') st1) end ∧
       tstep w2 (Some i2) pe2 (CProg p2) st1 = match prog_step p2 w2 pe2 with
        | Panic => (w2, TPanic st1) | Ok (w', pe', p') => (w', TRun (Some i2) pe' (CProg p') st1) end))
      as [(r & -> & ->)|[-> ->]].
    { destruct Hp; try (right; by split). left. eauto. }
    { cbn [tstep]. by apply Hsame, Hret. }
    destruct (prog_step p1 w1 pe1) as [[[w1' pe1'] d1]|], (prog_step p2 w2 pe2) as [[[w2' pe2'] d2]|]; simpl in Hstep; try done.
    + destruct Hstep as (b' & Hd' & Hw' & Hpe' & Ho & Hev & L1 & L2 & Hcalm'). simpl in *.
      exists b', []. simpl. rewrite !app_nil_r. split_and!; done.
    + by apply Hsame.
  - subst r'. destruct st1 as [|f st]; cbn [tstep].
    { apply Hsame. simpl. destruct r as [e|]; simpl; [done|]. rewrite Hd. split; [done|].
      destruct (pe_dropped pe2); [done|]. destruct Hpe as (-> & -> & _). done. }
    apply Forall_cons in Hst as [Hf Hst].
    destruct f as [id ignf ignm onf|id ignf rest|onf rest|rest]; simpl in Hf.
    + destruct r as [err|]; [|by apply Hinc, Hret]. rewrite Hd.
      destruct (pe_dropped pe2); [by apply Hinc, Hret|].
      destruct (ignm && is_missing err); [by apply Hinc, Hret|].
      apply Hsame, Hloop. by constructor.
    + apply Hsame, Hloop. constructor; [|done]. simpl. by destruct r; [constructor|].
    + apply Hsame, Hloop. constructor; [|done]. simpl. by destruct r; [split; [|constructor]|]; apply Hf.
    + apply Hsame, Hloop. constructor; [|done]. simpl. by destruct r; [constructor|].
  - subst r'. destruct st1 as [|f st]; cbn [tstep]; [by apply Hsame|].
    apply Forall_cons in Hst as [Hf Hst].
    destruct f as [id ignf ignm onf|id ignf [|q rest]|onf [|q rest]|[|q rest]]; simpl in Hf.
    + by apply Hsame.
    + destruct (ignf && is_Some_b r); by apply Hinc, Hret.
    + apply Forall_cons in Hf as [Hq Hf]. apply Hsame, Henter; [done|]. by constructor.
    + destruct r; [|by apply Hsame, Hret]. apply Hsame, Hloop. constructor; [|done]. simpl. apply Hf.
    + destruct Hf as [Hf1 [Hq Hf]%Forall_cons]. apply Hsame, Henter; [done|]. by constructor.
    + by apply Hsame, Hret.
    + apply Forall_cons in Hf as [Hq Hf]. apply Hsame, Henter; [done|]. by constructor.
Qed.

(** *** The whole pool *)
Context (w0 : world).
Definition i0 : nat := length (w_events w0).

Inductive phase : Type := PhRun (i : nat) | PhDone (res : option nat * option goerr) | PhPanic (i : nat).
(** A job, its twin that runs alone from [w0], and how they correspond. *)
Record entry : Type := mkEntry {
  en_k : nat; en_pl : pipeline; en_m : gomap tree;
  en_b : bij; en_w : world; en_t : thread; en_ph : phase; en_lg : list (string * metric) }.
Definition en_job (e : entry) : nat * pipeline * gomap tree := (en_k e, en_pl e, en_m e).

Record heap_ok (w : world) (e : entry) : Prop := mkHeapOk {
  ho_cells : sub (cells C) (en_b e);
  ho_rel : world_rel (en_b e) (en_k e) i0 w (en_w e);
  ho_p : ∀ p q, bp (en_b e) p q → p ∈ C ∨ length (hvals (w_heap w0)) ≤ p;
  ho_m : ∀ r s, bm (en_b e) r s → length (hmaps (w_heap w0)) ≤ r;
  ho_k : i0 ≤ en_k e;
  ho_solo : tsteps (Some i0) ((new_event w0 (en_m e)).1, tstart (en_pl e) (Some i0)) (en_w e, en_t e);
  ho_log : w_log (en_w e) = w_log w0 ++ en_lg e
}.
Definition phase_ok (ts : list thread) (rs : list (nat * (option nat * option goerr))) (e : entry) : Prop :=
  match en_ph e with
  | PhRun i => ∃ t pe c st, ts !! i = Some t ∧ t = TRun (Some (en_k e)) pe c st ∧
      thread_rel (en_b e) (en_k e) i0 (en_w e) t (en_t e)
  | PhDone res => (en_k e, res) ∈ rs ∧ thread_rel (en_b e) (en_k e) i0 (en_w e) (TIdle (Some res)) (en_t e)
  | PhPanic i => ∃ st st', ts !! i = Some (TPanic st) ∧ en_t e = TPanic st'
  end.
Definition apart (b1 b2 : bij) : Prop :=
  (∀ p q q', bp b1 p q → bp b2 p q' → p ∈ C) ∧ (∀ r s s', bm b1 r s → bm b2 r s' → False).

Record pool_inv (s : cstate) (es : list entry) (rs : list (nat * (option nat * option goerr))) : Prop := mkInv {
  in_heap : Forall (heap_ok (c_world s)) es;
  in_phase : Forall (phase_ok (c_threads s) rs) es;
  in_apart : ∀ a a' e e', es !! a = Some e → es !! a' = Some e' → a ≠ a' →
      apart (en_b e) (en_b e') ∧ en_k e ≠ en_k e';
  in_run : ∀ i k pe c st, c_threads s !! i = Some (TRun k pe c st) → ∃ e, e ∈ es ∧ en_ph e = PhRun i;
  in_panic : ∀ i st, c_threads s !! i = Some (TPanic st) → ∃ e, e ∈ es ∧ en_ph e = PhPanic i;
  in_res : ∀ k res, (k, res) ∈ rs → ∃ e, e ∈ es ∧ en_k e = k ∧ en_ph e = PhDone res;
  in_plain : ∀ p, p ∈ C → ∃ v, hvals (w_heap (c_world s)) !! p = Some v ∧ plain v;
  in_v0 : ∀ p v, hvals (w_heap w0) !! p = Some v → hvals (w_heap (c_world s)) !! p = Some v;
  in_m0 : ∀ r m, hmaps (w_heap w0) !! r = Some m → hmaps (w_heap (c_world s)) !! r = Some m;
  in_e0 : ∀ j e, w_events w0 !! j = Some e → w_events (c_world s) !! j = Some e;
  in_ev : i0 ≤ length (w_events (c_world s));
  in_log : w_log (c_world s) ≡ₚ w_log w0 ++ concat (map en_lg es)
}.

Lemma iso_frame b h1 h1' h2 : iso b h1 h2 →
  (∀ p q v, bp b p q → hvals h1 !! p = Some v → hvals h1' !! p = Some v) →
  (∀ r s m, bm b r s → hmaps h1 !! r = Some m → hmaps h1' !! r = Some m) → iso b h1' h2.
Proof.
  intros Hi Hv Hm. split; try apply Hi.
  - intros p q H. destruct (iso_val _ _ _ Hi _ _ H) as (v1 & v2 & H1 & H2 & Hr). exists v1, v2. eauto.
  - intros p q H. destruct (iso_map _ _ _ Hi _ _ H) as (v1 & v2 & H1 & H2 & Hr). exists v1, v2. eauto.
Qed.

(** Somebody else's step. *)
Lemma heap_ok_frame w w' e b b' k :
  heap_ok w e → owned b (w_heap w) b' (w_heap w') → apart b (en_b e) → en_k e ≠ k →
  (∀ j, j ≠ k → j < length (w_events w) → w_events w' !! j = w_events w !! j) →
  (∀ p, p ∈ C → ∃ v, hvals (w_heap w) !! p = Some v ∧ plain v) → heap_ok w' e.
Proof.
  intros He Ho [Ha1 Ha2] Hk Hev Hpl. split; try apply He.
  destruct (ho_rel _ _ He) as (Hi & e1 & e2 & H1 & H2 & Her). split.
  - eapply iso_frame; [exact Hi| |].
    + intros p q v Hp Hv. destruct (decide (p ∈ C)) as [Hin|Hin].
      * destruct (Hpl p Hin) as (v' & Hv' & Hplain). simplify_eq. by eapply (ow_plain _ _ _ _ Ho).
      * eapply (ow_v _ _ _ _ Ho); [done|]. intros q' Hq'. apply Hin. by eapply Ha1.
    + intros r s m Hr Hm. eapply (ow_mp _ _ _ _ Ho); [done|]. intros s' Hs'. by eapply Ha2.
  - exists e1, e2. split_and!; [|done|done]. rewrite Hev; [done|done|by eapply lookup_lt_Some].
Qed.

(** The new cells of [b'] are nobody else's. *)
Lemma apart_owned b h b' h' be h2 : owned b h b' h' → iso be h h2 → apart b be → apart b' be.
Proof.
  intros Ho Hi [Ha1 Ha2]. destruct (iso_bounds _ _ _ Hi) as [B1 B2]. split.
  - intros p q q' [H|H]%(ow_p _ _ _ _ Ho) H'; [by eapply Ha1|]. apply B1 in H'. lia.
  - intros p q q' [H|H]%(ow_m _ _ _ _ Ho) H'; [by eapply Ha2|]. apply B2 in H'. lia.
Qed.
Lemma apart_sym b1 b2 : apart b1 b2 → apart b2 b1.
Proof. intros [H1 H2]. split; eauto. Qed.

Lemma phase_ok_frame ts ts' rs rs' e i :
  phase_ok ts rs e → (∀ j, j ≠ i → j < length ts → ts' !! j = ts !! j) → (∀ x, x ∈ rs → x ∈ rs') →
  en_ph e ≠ PhRun i → en_ph e ≠ PhPanic i → phase_ok ts' rs' e.
Proof.
  unfold phase_ok. intros He Hts Hrs N1 N2. destruct (en_ph e) as [j|res|j].
  - destruct He as (t & pe & c & st & Hj & He). exists t, pe, c, st.
    rewrite Hts; [done|congruence|by eapply lookup_lt_Some].
  - destruct He as [H1 H2]. auto.
  - destruct He as (st & st' & Hj & He). exists st, st'.
    rewrite Hts; [done|congruence|by eapply lookup_lt_Some].
Qed.

Lemma keep0 w w' b b' :
  owned b (w_heap w) b' (w_heap w') →
  (∀ p q, bp b p q → p ∈ C ∨ length (hvals (w_heap w0)) ≤ p) →
  (∀ r s, bm b r s → length (hmaps (w_heap w0)) ≤ r) →
  (∀ p, p ∈ C → ∃ v, hvals (w_heap w) !! p = Some v ∧ plain v) →
  (∀ p v, hvals (w_heap w0) !! p = Some v → hvals (w_heap w) !! p = Some v) →
  (∀ r m, hmaps (w_heap w0) !! r = Some m → hmaps (w_heap w) !! r = Some m) →
  (∀ p, p ∈ C → ∃ v, hvals (w_heap w') !! p = Some v ∧ plain v) ∧
  (∀ p v, hvals (w_heap w0) !! p = Some v → hvals (w_heap w') !! p = Some v) ∧
  (∀ r m, hmaps (w_heap w0) !! r = Some m → hmaps (w_heap w') !! r = Some m).
Proof.
  intros Ho Hp Hm Hpl Hv0 Hm0. split_and!.
  - intros p Hin. destruct (Hpl p Hin) as (v & Hv & Hplain). exists v. split; [|done].
    by eapply (ow_plain _ _ _ _ Ho).
  - intros p v Hv. pose proof (Hv0 p v Hv) as Hv'. destruct (decide (p ∈ C)) as [Hin|Hin].
    + destruct (Hpl p Hin) as (v' & Hv'' & Hplain). simplify_eq. by eapply (ow_plain _ _ _ _ Ho).
    + eapply (ow_v _ _ _ _ Ho); [done|]. intros q [?|?]%Hp; [done|]. apply lookup_lt_Some in Hv. lia.
  - intros r m Hr. eapply (ow_mp _ _ _ _ Ho); [by apply Hm0|]. intros s ?%Hm. apply lookup_lt_Some in Hr. lia.
Qed.

Lemma inv_init : (∀ p, p ∈ C → ∃ v, hvals (w_heap w0) !! p = Some v ∧ plain v) →
  pool_inv (mkC w0 []) [] [].
Proof.
  intros H. split; simpl; try done; try (by apply List.Forall_nil).
  - intros k res Hin. by apply elem_of_nil in Hin.
  - by rewrite app_nil_r.
Qed.

Lemma inv_spawn w ts es rs : pool_inv (mkC w ts) es rs → pool_inv (mkC w (ts ++ [TIdle None])) es rs.
Proof.
  intros [I1 I2 I3 I4 I5 I6 I7 I8 I9 I10 I11 I12]. simpl in *. split; simpl; try done.
  - eapply Forall_impl; [exact I2|]. intros e He.
    unfold phase_ok in *. destruct (en_ph e) as [j|res|j]; [|done|].
    + destruct He as (t & pe & c & st & Hj & He). exists t, pe, c, st. split; [|done]. by apply lookup_app_l_Some.
    + destruct He as (st & st' & Hj & He). exists st, st'. split; [|done]. by apply lookup_app_l_Some.
  - intros i k pe c st [H|[_ H]]%lookup_app_Some; [by eapply I4|]. by apply list_lookup_singleton_Some in H as [_ H].
  - intros i st [H|[_ H]]%lookup_app_Some; [by eapply I5|]. by apply list_lookup_singleton_Some in H as [_ H].
Qed.

Lemma procs_ok l : Forall (λ q, stateless C (p_prog q) ∧ gentle (p_prog q)) (pps_all l) → Forall proc_ok l.
Proof.
  induction l as [|q l IH]; [constructor|]. rewrite pps_all_cons, Forall_app. intros [H1 H2].
  constructor; [done|by apply IH].
Qed.

Lemma inv_feed w ts es rs i res pl m w' k :
  (∀ p, p ∈ C → ∃ v, hvals (w_heap w0) !! p = Some v ∧ plain v) →
  pool_inv (mkC w ts) es rs → ts !! i = Some (TIdle res) →
  Forall (λ q, stateless C (p_prog q) ∧ gentle (p_prog q)) (pl_all pl) →
  new_event w m = (w', k) →
  ∃ e, en_job e = (k, pl, m) ∧ pool_inv (mkC w' (<[i := tstart pl (Some k)]> ts)) (e :: es) rs.
Proof.
  intros Hc0 [I1 I2 I3 I4 I5 I6 I7 I8 I9 I10 I11 I12] Hi Hpl Hn. simpl in *.
  apply Forall_app in Hpl as [Hpl1%procs_ok Hpl2%procs_ok].
  assert (iso (cells C) (w_heap w) (w_heap w0)) as Hiso.
  { apply same_cells_iso. intros p Hin. destruct (Hc0 _ Hin) as (v & H1 & H2). exists v. auto. }
  destruct (own_new_event (cells C) m w w0 Hiso) as (b & Ho & Hrel).
  assert (w_log w' = w_log w ∧ k = length (w_events w) ∧
    ∃ e, w_events w' = w_events w ++ [e]) as (Hlog & Hk & enew & Hev).
  { unfold new_event in Hn. destruct (alloc_assoc (w_heap w) m) as [h1 gm].
    destruct (alloc_map_with h1 gm) as [h2 r]. injection Hn as <- <-. simpl. eauto. }
  assert (w_log (new_event w0 m).1 = w_log w0 ∧ (new_event w0 m).2 = i0) as [Hlog0 Hk0].
  { unfold new_event. destruct (alloc_assoc (w_heap w0) m) as [h1 gm].
    destruct (alloc_map_with h1 gm) as [h2 r]. done. }
  rewrite Hn in Ho, Hrel. simpl in Ho, Hrel. rewrite Hk0 in Hrel.
  set (e := mkEntry k pl m b (new_event w0 m).1 (tstart pl (Some i0)) (PhRun i) []).
  exists e. split; [done|].
  destruct (keep0 w w' (cells C) b Ho) as (K1 & K2 & K3); try done.
  { intros p q [_ ?]. by left. }
  assert (∀ x, apart (cells C) x) as Hap. { intros x. split; [|done]. by intros p q q' [_ ?]. }
  assert (∀ x, x ∈ es → en_k x < length (w_events w)) as Hkx.
  { intros x Hx. rewrite Forall_forall in I1. destruct (ho_rel _ _ (I1 x Hx)) as (_ & e1 & _ & H1 & _).
    by eapply lookup_lt_Some. }
  split; simpl; try done.
  - constructor.
    + split; simpl; try done.
      * apply Ho.
      * intros p q [[_ ?]|?]%(ow_p _ _ _ _ Ho); [by left|]. right.
        assert (length (hvals (w_heap w0)) ≤ length (hvals (w_heap w))); [|lia].
        destruct (decide (length (hvals (w_heap w0)) = 0)) as [->|Hne]; [lia|].
        destruct (lookup_lt_is_Some_2 (hvals (w_heap w0)) (length (hvals (w_heap w0)) - 1)) as [v Hv]; [lia|].
        apply I8, lookup_lt_Some in Hv. lia.
      * intros p q [H|?]%(ow_m _ _ _ _ Ho); [done|].
        assert (length (hmaps (w_heap w0)) ≤ length (hmaps (w_heap w))); [|lia].
        destruct (decide (length (hmaps (w_heap w0)) = 0)) as [->|Hne]; [lia|].
        destruct (lookup_lt_is_Some_2 (hmaps (w_heap w0)) (length (hmaps (w_heap w0)) - 1)) as [v Hv]; [lia|].
        apply I9, lookup_lt_Some in Hv. lia.
      * lia.
      * apply ts_refl.
      * by rewrite Hlog0, app_nil_r.
    + rewrite Forall_forall in I1 |- *. intros x Hx.
      eapply (heap_ok_frame w w' x (cells C) b k); [by apply I1|done|done| | |done].
      * specialize (Hkx x Hx). lia.
      * intros j _ Hj. rewrite Hev. by apply lookup_app_l.
  - constructor.
    + unfold phase_ok. simpl. eexists _, _, _, _. split; [by apply list_lookup_insert; eapply lookup_lt_Some|].
      split; [done|]. simpl. split_and!; try done. constructor; [|constructor]. done.
    + rewrite Forall_forall in I2 |- *. intros x Hx. pose proof (I2 x Hx) as Hxx.
      eapply (phase_ok_frame ts _ rs rs x i); [done| |done| |].
      * intros j Hj _. by apply list_lookup_insert_ne.
      * intros E. unfold phase_ok in Hxx. rewrite E in Hxx. destruct Hxx as (t & ? & ? & ? & ? & -> & _). congruence.
      * intros E. unfold phase_ok in Hxx. rewrite E in Hxx. destruct Hxx as (? & ? & ? & _). congruence.
  - assert (∀ x, x ∈ es → apart b (en_b x) ∧ k ≠ en_k x) as Hnew.
    { intros x Hx. rewrite Forall_forall in I1. split; [|specialize (Hkx x Hx); lia].
      destruct (ho_rel _ _ (I1 x Hx)) as [Hix _]. by eapply apart_owned. }
    intros [|a] [|a'] x x' Hx Hx' Hne; simpl in Hx, Hx'; try done.
    + injection Hx as <-. simpl. apply Hnew. by eapply elem_of_list_lookup_2.
    + injection Hx' as <-. simpl. destruct (Hnew x) as [H1 H2]; [by eapply elem_of_list_lookup_2|].
      split; [by apply apart_sym|done].
    + eapply I3; eauto.
  - intros j k' pe c st H. apply list_lookup_insert_Some in H as [(-> & _ & _)|[Hne H]].
    + exists e. split; [by left|done].
    + destruct (I4 _ _ _ _ _ H) as (x & Hx & Hph). exists x. split; [by right|done].
  - intros j st H. apply list_lookup_insert_Some in H as [(-> & H & _)|[Hne H]]; [done|].
    destruct (I5 _ _ H) as (x & Hx & Hph). exists x. split; [by right|done].
  - intros k' r' Hr. destruct (I6 _ _ Hr) as (x & Hx & Hph). exists x. split; [by right|done].
  - intros j ev Hj. rewrite Hev. apply lookup_app_l_Some. auto.
  - rewrite Hev, app_length. lia.
  - by rewrite Hlog.
Qed.

Lemma concat_insert_perm (es : list entry) a e e' lg :
  es !! a = Some e → en_lg e' = en_lg e ++ lg →
  concat (map en_lg (<[a := e']> es)) ≡ₚ concat (map en_lg es) ++ lg.
Proof.
  revert a. induction es as [|x es IH]; intros [|a] H He; simpl in *; try done.
  - injection H as ->. rewrite He, <-!app_assoc. f_equiv. by rewrite Permutation_app_comm.
  - rewrite (IH a H He). by rewrite app_assoc.
Qed.

Lemma inv_move w ts es rs i k pe c st w' t' :
  pool_inv (mkC w ts) es rs →
  ts !! i = Some (TRun (Some k) pe c st) → tstep w (Some k) pe c st = (w', t') →
  ∃ es', map en_job es' = map en_job es ∧
    pool_inv (mkC w' (<[i := t']> ts)) es' (match t' with TIdle (Some res) => (k, res) :: rs | _ => rs end).
Proof.
  intros [I1 I2 I3 I4 I5 I6 I7 I8 I9 I10 I11 I12] Hi Ht. simpl in *.
  destruct (I4 _ _ _ _ _ Hi) as (e & He & Hph).
  destruct (elem_of_list_lookup_1 _ _ He) as [a Ha].
  pose proof (Forall_lookup_1 _ _ _ _ I1 Ha) as Hok. pose proof (Forall_lookup_1 _ _ _ _ I2 Ha) as Hpok.
  unfold phase_ok in Hpok. rewrite Hph in Hpok. destruct Hpok as (t & pe' & c' & st' & Hi' & -> & Hrel).
  rewrite Hi in Hi'. injection Hi' as Hk <- <- <-.
  destruct (en_t e) as [|e2 pe2 c2 st2|] eqn:Et; [done| |done].
  assert (e2 = Some i0) as -> by apply Hrel. rewrite <-Hk in *.
  pose proof (tstep_own (en_b e) k i0 w (en_w e) pe pe2 c c2 st st2 (ho_cells _ _ Hok)) as Hstep.
  rewrite Ht in Hstep. specialize (Hstep ltac:(rewrite Hk; apply Hok) Hrel).
  destruct (tstep (en_w e) (Some i0) pe2 c2 st2) as [w2' t2'] eqn:Et2.
  destruct Hstep as (b' & lg & Ho & Hev & L1 & L2 & Hw' & Hrel'). simpl in *.
  set (ph := match t' with TIdle (Some res) => PhDone res | TPanic _ => PhPanic i | _ => PhRun i end).
  set (e' := mkEntry k (en_pl e) (en_m e) b' w2' t2' ph (en_lg e ++ lg)).
  assert (a < length es) as Hlt by (by eapply lookup_lt_Some).
  exists (<[a := e']> es). split.
  { rewrite list_fmap_insert. apply list_insert_id. rewrite list_lookup_fmap, Ha. simpl.
    unfold en_job. simpl. by rewrite Hk. }
  destruct (keep0 w w' (en_b e) b' Ho (ho_p _ _ Hok) (ho_m _ _ Hok)) as (K1 & K2 & K3); try done.
  assert (∀ a' x, es !! a' = Some x → a' ≠ a → apart b' (en_b x) ∧ en_k x ≠ k ∧ apart (en_b e) (en_b x)) as Hoth.
  { intros a' x Hx Hne. destruct (I3 _ _ _ _ Ha Hx ltac:(done)) as [Hap Hkx]. split_and!; [|congruence|done].
    pose proof (Forall_lookup_1 _ _ _ _ I1 Hx) as Hokx. destruct (ho_rel _ _ Hokx) as [Hix _]. by eapply apart_owned. }
  assert (∀ a' x, es !! a' = Some x → a' ≠ a → en_ph x ≠ PhRun i ∧ en_ph x ≠ PhPanic i) as Hphx.
  { intros a' x Hx Hne. pose proof (Forall_lookup_1 _ _ _ _ I2 Hx) as Hxx. unfold phase_ok in Hxx. split; intros E; rewrite E in Hxx.
    - destruct Hxx as (t & ? & ? & ? & Ht1 & -> & _). destruct (Hoth _ _ Hx Hne) as (_ & Hkx & _).
      rewrite Hi in Ht1. injection Ht1 as Ht1. congruence.
    - destruct Hxx as (? & ? & Ht1 & _). congruence. }
  assert (∀ x, x ∈ es → x ≠ e → x ∈ <[a := e']> es) as Hin.
  { intros x [a' Hx]%elem_of_list_lookup_1 Hne. destruct (decide (a' = a)) as [->|Hna]; [congruence|].
    eapply elem_of_list_lookup_2. rewrite list_lookup_insert_ne; [exact Hx|done]. }
  assert (e' ∈ <[a := e']> es) as Hin'.
  { eapply elem_of_list_lookup_2. by apply list_lookup_insert. }
  assert (∀ x, x ∈ rs → x ∈ match t' with TIdle (Some res) => (k, res) :: rs | _ => rs end) as Hrs.
  { intros x Hx. destruct t' as [[res|]| |]; [by right|done..]. }
  split; simpl; try done.
  - apply Forall_lookup. intros a' x Hx. apply list_lookup_insert_Some in Hx as [(<- & <- & _)|[Hne Hx]].
    + split; simpl; try done.
      * eapply sub_trans; [apply Hok|apply Ho].
      * intros p q [H|H]%(ow_p _ _ _ _ Ho); [by eapply Hok|]. right.
        assert (length (hvals (w_heap w0)) ≤ length (hvals (w_heap w))); [|lia].
        destruct (decide (length (hvals (w_heap w0)) = 0)) as [->|Hne]; [lia|].
        destruct (lookup_lt_is_Some_2 (hvals (w_heap w0)) (length (hvals (w_heap w0)) - 1)) as [v Hv]; [lia|].
        apply I8, lookup_lt_Some in Hv. lia.
      * intros p q [H|H]%(ow_m _ _ _ _ Ho); [by eapply Hok|].
        assert (length (hmaps (w_heap w0)) ≤ length (hmaps (w_heap w))); [|lia].
        destruct (decide (length (hmaps (w_heap w0)) = 0)) as [->|Hne]; [lia|].
        destruct (lookup_lt_is_Some_2 (hmaps (w_heap w0)) (length (hmaps (w_heap w0)) - 1)) as [v Hv]; [lia|].
        apply I9, lookup_lt_Some in Hv. lia.
      * rewrite Hk. apply Hok.
      * eapply tsteps_trans; [exact (ho_solo _ _ Hok)|]. rewrite Et. by apply tsteps_one.
      * rewrite L2, (ho_log _ _ Hok). by rewrite app_assoc.
    + destruct (Hoth _ _ Hx ltac:(done)) as (_ & Hkx & Hap).
      eapply (heap_ok_frame w w' x (en_b e) b' k); [by eapply Forall_lookup_1|done|done|done| |done].
      intros j Hj _. by apply Hev.
  - apply Forall_lookup. intros a' x Hx. apply list_lookup_insert_Some in Hx as [(<- & <- & _)|[Hne Hx]].
    + unfold phase_ok. simpl. assert (<[i := t']> ts !! i = Some t') as Hti.
      { apply list_lookup_insert. by eapply lookup_lt_Some. }
      destruct t' as [[res|]|ev3 pe3 c3 st3|st3]; subst ph; simpl.
      * split; [by left|]. exact Hrel'.
      * done.
      * assert (ev3 = Some k) as ->. { destruct t2' as [|? ? ? ?|]; [done| |done]. apply Hrel'. }
        eexists _, _, _, _. split; [exact Hti|]. split; [done|]. exact Hrel'.
      * destruct t2' as [| |st4]; [done|done|]. eexists _, _. split; [exact Hti|done].
    + destruct (Hphx _ _ Hx ltac:(done)) as [N1 N2].
      eapply (phase_ok_frame ts _ rs _ x i); [by eapply Forall_lookup_1| |done|done|done].
      intros j Hj _. by apply list_lookup_insert_ne.
  - intros a1 a2 x1 x2 Hx1 Hx2 Hne. apply list_lookup_insert_Some in Hx1 as [(<- & <- & _)|[Hne1 Hx1]].
    + rewrite list_lookup_insert_ne in Hx2 by done. destruct (Hoth _ _ Hx2 ltac:(done)) as (? & ? & _). simpl. auto.
    + apply list_lookup_insert_Some in Hx2 as [(<- & <- & _)|[Hne2 Hx2]].
      * destruct (Hoth _ _ Hx1 ltac:(done)) as (? & ? & _). simpl. split; [by apply apart_sym|done].
      * by eapply I3.
  - intros j k' pe3 c3 st3 H. apply list_lookup_insert_Some in H as [(<- & H & _)|[Hne H]].
    + exists e'. split; [done|]. simpl. subst ph. by rewrite H.
    + destruct (I4 _ _ _ _ _ H) as (x & Hx & Hphj). exists x. split; [|done]. apply Hin; [done|].
      intros ->. congruence.
  - intros j st3 H. apply list_lookup_insert_Some in H as [(<- & H & _)|[Hne H]].
    + exists e'. split; [done|]. simpl. subst ph. by rewrite H.
    + destruct (I5 _ _ H) as (x & Hx & Hphj). exists x. split; [|done]. apply Hin; [done|].
      intros ->. congruence.
  - assert (∀ k' res, (k', res) ∈ rs → ∃ x, x ∈ <[a := e']> es ∧ en_k x = k' ∧ en_ph x = PhDone res) as Hold.
    { intros k' res Hr. destruct (I6 _ _ Hr) as (x & Hx & Hk' & Hph'). exists x. split; [|done].
      apply Hin; [done|]. intros ->. congruence. }
    intros k' r' Hr. destruct t' as [[res|]| |] eqn:Et'; [|by apply Hold..].
    apply elem_of_cons in Hr as [Hr|Hr]; [|by apply Hold]. simplify_eq. exists e'. split; done.
  - intros j ev Hj. rewrite Hev; [auto|]. apply lookup_lt_Some in Hj. pose proof (ho_k _ _ Hok) as Hk'.
    unfold i0 in Hk'. rewrite <-Hk in Hk'. lia.
  - destruct (decide (i0 = 0)) as [->|Hne]; [lia|].
    destruct (lookup_lt_is_Some_2 (w_events w0) (i0 - 1)) as [v Hv]; [unfold i0 in *; lia|].
    pose proof (lookup_lt_Some _ _ _ (I10 _ _ Hv)) as Hl1.
    assert (w_events w' !! (i0 - 1) = Some v) as Hl2.
    { rewrite Hev; [auto|]. pose proof (ho_k _ _ Hok) as Hk'. rewrite <-Hk in Hk'. unfold i0 in *. lia. }
    apply lookup_lt_Some in Hl2. lia.
  - rewrite (concat_insert_perm es a e e' lg Ha) by done. rewrite L1, I12. by rewrite app_assoc.
Qed.

Lemma pool_inv_reached pls s jobs rs :
  (∀ pl, pl ∈ pls → Forall (λ q, stateless C (p_prog q) ∧ gentle (p_prog q)) (pl_all pl)) →
  (∀ p, p ∈ C → ∃ v, hvals (w_heap w0) !! p = Some v ∧ plain v) →
  pool pls w0 s jobs rs → ∃ es, map en_job es = jobs ∧ pool_inv s es rs.
Proof.
  intros Hpl Hc. induction 1 as [|w ts jobs rs _ (es & Hj & IH)
    |w ts jobs rs i res pl m w' k _ (es & Hj & IH) Hi Hin Hn
    |w ts jobs rs i k pe c st w' t' _ (es & Hj & IH) Hi Ht].
  - exists []. split; [done|]. by apply inv_init.
  - exists es. split; [done|]. by apply inv_spawn.
  - destruct (inv_feed w ts es rs i res pl m w' k Hc IH Hi (Hpl _ Hin) Hn) as (e & He & Hinv).
    exists (e :: es). split; [|done]. simpl. by rewrite He, Hj.
  - destruct (inv_move w ts es rs i k pe c st w' t' IH Hi Ht) as (es' & He & Hinv).
    exists es'. split; [|done]. by rewrite He.
Qed.
End own.

(** *** Alone *)
Lemma tsteps_det evt s : ∀ s1 s2, tsteps evt s s1 → tsteps evt s s2 →
  (∀ pe c st, s1.2 ≠ TRun evt pe c st) → tsteps evt s2 s1.
Proof.
  intros s1 s2 H1. revert s2. induction H1 as [s|w pe c st s2' s3 Hs Hss IH]; intros s2 H2 Hterm.
  - inversion H2; subst; [apply ts_refl|]. exfalso. by eapply Hterm.
  - inversion H2 as [|w' pe' c' st' x y Hs' Hss']; subst; [by eapply ts_step|]. by apply IH.
Qed.
Lemma tsteps_stuck evt s s' : tsteps evt s s' → (∀ pe c st, s.2 ≠ TRun evt pe c st) → s' = s.
Proof. destruct 1 as [|w pe c st]; [done|]. intros H'. exfalso. by eapply H'. Qed.

Lemma solo_result w0 pl m ws t :
  tsteps (Some (i0 w0)) ((new_event w0 m).1, tstart pl (Some (i0 w0))) (ws, t) →
  match feed pl w0 m with
  | Ok (w', i, r, err) => i = i0 w0 ∧ tsteps (Some (i0 w0)) (ws, t) (w', TIdle (Some (r, err)))
  | Panic => ∃ w' st, tsteps (Some (i0 w0)) (ws, t) (w', TPanic st)
  end.
Proof.
  intros H. unfold feed. assert ((new_event w0 m).2 = i0 w0) as Hk.
  { unfold new_event. destruct (alloc_assoc (w_heap w0) m) as [h1 gm]. by destruct (alloc_map_with h1 gm). }
  destruct (new_event w0 m) as [w1 i]. simpl in *. subst i.
  pose proof (Process_tsteps pl w1 (Some (i0 w0))) as HP.
  destruct (Process pl w1 (Some (i0 w0))) as [[[w' r] err]|].
  - split; [done|]. by eapply tsteps_det.
  - destruct HP as (w' & st & HP). exists w', st. by eapply tsteps_det.
Qed.

(** ** Memory of an event: every map and value that can be reached from it. *)
Inductive place : Type := RMap (r : mref) | RVal (p : ptr).
Inductive reaches (w : world) (k : nat) : place → Prop :=
| re_root e r : w_events w !! k = Some e → fields e = Some r → reaches w k (RMap r)
| re_entry r m key p : reaches w k (RMap r) → hmaps (w_heap w) !! r = Some m → (key, Some p) ∈ m → reaches w k (RVal p)
| re_item p v l q : reaches w k (RVal p) → hvals (w_heap w) !! p = Some v → v_arr v = Some l → Some q ∈ l →
    reaches w k (RVal q)
| re_object p v r : reaches w k (RVal p) → hvals (w_heap w) !! p = Some v → v_obj v = Some r → reaches w k (RMap r).

Lemma reaches_rel b i1 i2 w1 w2 x : world_rel b i1 i2 w1 w2 → reaches w1 i1 x →
  match x with RMap r => ∃ s, bm b r s | RVal p => ∃ q, bp b p q end.
Proof.
  intros (Hi & e1 & e2 & H1 & H2 & He). induction 1 as [e r Hev Hf|r m key p _ [s Hs] Hm Hin|p v l q _ [s Hs] Hv Ha Hin|p v r _ [s Hs] Hv Ho].
  - simplify_eq. unfold ev_rel in He. rewrite Hf in He. destruct (fields e2); [|done]. eauto.
  - destruct (iso_map _ _ _ Hi _ _ Hs) as (m1 & m2 & M1 & M2 & Hr). simplify_eq.
    apply elem_of_list_lookup_1 in Hin as [j Hj]. destruct (Forall2_lookup_l _ _ _ _ _ Hr Hj) as ([k2 y] & Hy & _ & Hxy).
    simpl in Hxy. destruct y; [|done]. eauto.
  - destruct (iso_val _ _ _ Hi _ _ Hs) as (v1 & v2 & M1 & M2 & (_&_&_&_&_&_&_&Hr&_)). simplify_eq. rewrite Ha in Hr.
    destruct (v_arr v2) as [l2|]; [|done]. simpl in Hr.
    apply elem_of_list_lookup_1 in Hin as [j Hj]. destruct (Forall2_lookup_l _ _ _ _ _ Hr Hj) as (y & Hy & Hxy).
    destruct y; [|done]. eauto.
  - destruct (iso_val _ _ _ Hi _ _ Hs) as (v1 & v2 & M1 & M2 & (_&_&_&_&_&_&_&_&Hr)). simplify_eq. rewrite Ho in Hr.
    destruct (v_obj v2); [|done]. eauto.
Qed.

(** ** The theorems, for any processors that keep no state *)
Section results.
Context (C : list ptr) (pls : list pipeline) (w0 : world).
Context (Hpls : ∀ pl, pl ∈ pls → Forall (λ q, stateless C (p_prog q) ∧ gentle (p_prog q)) (pl_all pl)).
Context (Hc : ∀ p, p ∈ C → ∃ v, hvals (w_heap w0) !! p = Some v ∧ plain v).

Lemma entry_of s jobs rs k pl m es : map en_job es = jobs → (k, pl, m) ∈ jobs → pool_inv C w0 s es rs →
  ∃ e, e ∈ es ∧ en_k e = k ∧ en_pl e = pl ∧ en_m e = m ∧ heap_ok C w0 (c_world s) e ∧ phase_ok C w0 (c_threads s) rs e.
Proof.
  intros <- Hin Hinv. apply elem_of_list_fmap in Hin as (e & He & Hin). injection He as -> -> ->.
  exists e. destruct Hinv as [I1 I2 _ _ _ _ _ _ _ _ _ _]. rewrite Forall_forall in I1, I2. auto 10.
Qed.
Lemma entry_unique s rs es e e' : pool_inv C w0 s es rs → e ∈ es → e' ∈ es → en_k e = en_k e' → e = e'.
Proof.
  intros Hinv [a Ha]%elem_of_list_lookup_1 [a' Ha']%elem_of_list_lookup_1 Hk.
  destruct (decide (a = a')) as [->|Hne]; [congruence|].
  by destruct (in_apart _ _ _ _ _ Hinv _ _ _ _ Ha Ha' Hne) as [_ ?].
Qed.

Lemma pool_results s jobs rs k pl m res :
  pool pls w0 s jobs rs → (k, pl, m) ∈ jobs → (k, res) ∈ rs →
  ∃ w' i r err, feed pl w0 m = Ok (w', i, r, err) ∧
    res = (match r with Some _ => Some k | None => None end, err) ∧
    ∀ n, event_view n (c_world s) k = event_view n w' i.
Proof.
  intros Hp Hj Hr. destruct (pool_inv_reached C w0 pls s jobs rs Hpls Hc Hp) as (es & Hes & Hinv).
  destruct (entry_of s jobs rs k pl m es Hes Hj Hinv) as (e & He & <- & <- & <- & Hok & Hph).
  destruct (in_res _ _ _ _ _ Hinv _ _ Hr) as (e' & He' & Hk' & Hph').
  assert (e' = e) as -> by (by eapply entry_unique). unfold phase_ok in Hph. rewrite Hph' in Hph.
  destruct Hph as [_ Hrel]. destruct (en_t e) as [[r2|]| |] eqn:Et; [|done|done|done].
  destruct Hrel as [H1 H2]. pose proof (solo_result w0 (en_pl e) (en_m e) (en_w e) (en_t e) (ho_solo _ _ _ _ Hok)) as Hs.
  rewrite Et in Hs.
  destruct (feed (en_pl e) w0 (en_m e)) as [[[[w' i] r] err]|].
  - destruct Hs as [-> Hs]. apply tsteps_stuck in Hs; [|done]. injection Hs as -> <-. simpl in *.
    eexists _, _, _, _. split; [done|]. split; [destruct res; simpl in *; congruence|].
    intros n. eapply event_view_rel, Hok.
  - destruct Hs as (w' & st & Hs). by apply tsteps_stuck in Hs.
Qed.

Lemma pool_panic s jobs rs i st : pool pls w0 s jobs rs → c_threads s !! i = Some (TPanic st) →
  ∃ k pl m, (k, pl, m) ∈ jobs ∧ feed pl w0 m = Panic.
Proof.
  intros Hp Hi. destruct (pool_inv_reached C w0 pls s jobs rs Hpls Hc Hp) as (es & <- & Hinv).
  destruct (in_panic _ _ _ _ _ Hinv _ _ Hi) as (e & He & Hph).
  pose proof (in_heap _ _ _ _ _ Hinv) as I1. pose proof (in_phase _ _ _ _ _ Hinv) as I2.
  rewrite Forall_forall in I1, I2. specialize (I1 e He). specialize (I2 e He).
  unfold phase_ok in I2. rewrite Hph in I2. destruct I2 as (? & st' & _ & Et).
  exists (en_k e), (en_pl e), (en_m e). split; [by apply (elem_of_list_fmap_1 en_job)|].
  pose proof (solo_result w0 (en_pl e) (en_m e) (en_w e) (en_t e) (ho_solo _ _ _ _ I1)) as Hs. rewrite Et in Hs.
  destruct (feed (en_pl e) w0 (en_m e)) as [[[[w' j] r] err]|]; [|done].
  destruct Hs as [_ Hs]. by apply tsteps_stuck in Hs.
Qed.

Lemma pool_quiet s jobs rs : pool pls w0 s jobs rs → (∀ t, t ∈ c_threads s → ∃ res, t = TIdle res) →
  (∀ k pl m, (k, pl, m) ∈ jobs → ∃ res, (k, res) ∈ rs) ∧
  ∃ lgs, Forall2 (λ j lg, ∃ w' i r err, feed j.1.2 w0 j.2 = Ok (w', i, r, err) ∧ w_log w' = w_log w0 ++ lg) jobs lgs ∧
    w_log (c_world s) ≡ₚ w_log w0 ++ concat lgs.
Proof.
  intros Hp Hq. destruct (pool_inv_reached C w0 pls s jobs rs Hpls Hc Hp) as (es & Hes & Hinv).
  assert (∀ e, e ∈ es → ∃ res, en_ph e = PhDone res ∧ (en_k e, res) ∈ rs) as Hdone.
  { intros e He. pose proof (in_phase _ _ _ _ _ Hinv) as I2. rewrite Forall_forall in I2. specialize (I2 e He).
    unfold phase_ok in I2. destruct (en_ph e) as [i|res|i].
    - destruct I2 as (t & pe & c & st & Hi & -> & _). destruct (Hq _ (elem_of_list_lookup_2 _ _ _ Hi)). done.
    - exists res. by destruct I2.
    - destruct I2 as (st & st' & Hi & _). destruct (Hq _ (elem_of_list_lookup_2 _ _ _ Hi)). done. }
  split.
  - intros k pl m Hj. destruct (entry_of s jobs rs k pl m es Hes Hj Hinv) as (e & He & <- & _).
    destruct (Hdone e He) as (res & _ & ?). eauto.
  - exists (map en_lg es). split; [|apply (in_log _ _ _ _ _ Hinv)]. subst jobs. apply Forall2_fmap, Forall_Forall2_diag.
    apply Forall_forall. intros e He. simpl. destruct (Hdone e He) as (res & Hph & Hr).
    pose proof (in_heap _ _ _ _ _ Hinv) as I1. pose proof (in_phase _ _ _ _ _ Hinv) as I2.
    rewrite Forall_forall in I1, I2. specialize (I1 e He). specialize (I2 e He).
    unfold phase_ok in I2. rewrite Hph in I2. destruct I2 as [_ Hrel].
    destruct (en_t e) as [[r2|]| |] eqn:Et; [|done|done|done].
    pose proof (solo_result w0 (en_pl e) (en_m e) (en_w e) (en_t e) (ho_solo _ _ _ _ I1)) as Hs. rewrite Et in Hs.
    destruct (feed (en_pl e) w0 (en_m e)) as [[[[w' i] r] err]|].
    + destruct Hs as [-> Hs]. apply tsteps_stuck in Hs; [|done]. injection Hs as -> <-.
      eexists _, _, _, _. split; [done|]. apply (ho_log _ _ _ _ I1).
    + destruct Hs as (w' & st & Hs). by apply tsteps_stuck in Hs.
Qed.

Lemma pool_memory s jobs rs : pool pls w0 s jobs rs →
  (∀ p v, hvals (w_heap w0) !! p = Some v → hvals (w_heap (c_world s)) !! p = Some v) ∧
  (∀ r m, hmaps (w_heap w0) !! r = Some m → hmaps (w_heap (c_world s)) !! r = Some m) ∧
  (∀ j e, w_events w0 !! j = Some e → w_events (c_world s) !! j = Some e).
Proof.
  intros Hp. destruct (pool_inv_reached C w0 pls s jobs rs Hpls Hc Hp) as (es & Hes & Hinv).
  destruct Hinv. done.
Qed.

Lemma pool_separate s jobs rs j1 j2 x : pool pls w0 s jobs rs → j1 ∈ jobs → j2 ∈ jobs → j1 ≠ j2 →
  reaches (c_world s) j1.1.1 x → reaches (c_world s) j2.1.1 x → ∃ p, x = RVal p ∧ p ∈ C.
Proof.
  intros Hp H1 H2 Hne R1 R2. destruct (pool_inv_reached C w0 pls s jobs rs Hpls Hc Hp) as (es & <- & Hinv).
  apply elem_of_list_fmap in H1 as (e1 & -> & [a1 H1]%elem_of_list_lookup_1).
  apply elem_of_list_fmap in H2 as (e2 & -> & [a2 H2]%elem_of_list_lookup_1).
  assert (a1 ≠ a2) as Ha by (intros ->; congruence).
  destruct (in_apart _ _ _ _ _ Hinv _ _ _ _ H1 H2 Ha) as [[A1 A2] _].
  pose proof (in_heap _ _ _ _ _ Hinv) as I1.
  pose proof (Forall_lookup_1 _ _ _ _ I1 H1) as O1. pose proof (Forall_lookup_1 _ _ _ _ I1 H2) as O2.
  pose proof (reaches_rel _ _ _ _ _ _ (ho_rel _ _ _ _ O1) R1) as Q1.
  pose proof (reaches_rel _ _ _ _ _ _ (ho_rel _ _ _ _ O2) R2) as Q2.
  destruct x as [r|p].
  - destruct Q1 as [s1 Q1], Q2 as [s2 Q2]. by destruct (A2 _ _ _ Q1 Q2).
  - destruct Q1 as [s1 Q1], Q2 as [s2 Q2]. exists p. split; [done|]. by eapply A1.
Qed.
End results.
