(** * Property theorems for pipeline execution: C12-C22, C27.

    Vocabulary: a [pipeline] is a list of processors and a list of global
    on_failure processors; a processor runs an arbitrary program [p_prog] over the
    processor.Event interface.  [Process pl w evt = Ok (w', r, err)]: the call
    returned the event [r] and the error [err] and left the world [w'];
    [Panic]: it panicked.  [new_log w w' lg]: [lg] lists the counter increments made
    between [w] and [w'], in order; [runs lg] lists the ids of the processors started;
    [count id m lg] is how often counter [m] of component [id] was incremented;
    [chain l w pe w' pe']: the processors [l] all succeeded one after the other;
    [stopped l ... e]: [l] ran up to a processor that failed with [e]. *)
From Verif Require Import PipelineRun.

(** ** C12 *)
Theorem C12_event_or_error : ∀ pl w evt w' r err,
  Process pl w evt = Ok (w', r, err) →
  (err = None ∧ r = evt) ∨ (err ≠ None ∧ r = None).
Proof. intros. destruct (Process_pl _ _ _ _ _ _ H) as (pe' & _ & ->). destruct err; naive_solver. Qed.
Print Assumptions C12_event_or_error.

(** The documented outcome for a dropped event, (nil, nil), never occurs. *)
Theorem C12_never_neither : ∀ pl w i w' r err,
  Process pl w (Some i) = Ok (w', r, err) → ¬ (r = None ∧ err = None).
Proof. intros pl w i w' r err H [-> ->]. apply C12_event_or_error in H. naive_solver. Qed.
Print Assumptions C12_never_neither.

Example C12_ex :
  (∃ w', Process pl_recover w_init (Some 0) = Ok (w', Some 0, None)) ∧
  (∃ w', Process (mkPipeline "p" [simple "a" fail_prog] []) w_init (Some 0) =
           Ok (w', None, Some (EMsg "failed"))).
Proof. split; eexists; reflexivity. Qed.

(** ** C13 *)
Theorem C13_in_order_until_failure : ∀ pl w evt w' r err,
  Process pl w evt = Ok (w', r, err) →
  ∃ pe',
  (chain (pl_processors pl) w (mkPEvent evt false false) w' pe' ∧ err = None) ∨
  (∃ before p after w1 pe1 w2 pe2 e,
     pl_processors pl = before ++ p :: after ∧
     chain before w (mkPEvent evt false false) w1 pe1 ∧
     pp_process p w1 pe1 = Ok (w2, pe2, Some e) ∧
     on_failure_outcome (pl_onf pl) w2 pe2 e w' pe' err).
Proof. intros. destruct (Process_cases _ _ _ _ _ _ H) as (pe' & _ & Hc). by exists pe'. Qed.
Print Assumptions C13_in_order_until_failure.

Theorem C13_later_processors_do_not_run : ∀ pl w evt w' r err before p after w1 pe1 w2 pe2 e,
  NoDup (map p_id (pl_all pl)) →
  Process pl w evt = Ok (w', r, err) →
  pl_processors pl = before ++ p :: after →
  chain before w (mkPEvent evt false false) w1 pe1 →
  pp_process p w1 pe1 = Ok (w2, pe2, Some e) →
  ∃ lg, new_log w w' lg ∧ ∀ q m, q ∈ pps_all after → (p_id q, m) ∉ lg.
Proof. exact Process_later_not_run. Qed.
Print Assumptions C13_later_processors_do_not_run.

(** Start order: processors start in configuration order (a processor, then its
    handlers, then the next one; global handlers last). *)
Theorem C13_start_order : ∀ pl w evt w' r err,
  Process pl w evt = Ok (w', r, err) →
  ∃ lg, new_log w w' lg ∧ runs lg `sublist_of` map p_id (pl_all pl).
Proof. exact Process_runs. Qed.
Print Assumptions C13_start_order.

Example C13_ex :
  let pl := mkPipeline "p" [simple "a" ok_prog; simple "b" fail_prog; simple "c" ok_prog]
              [simple "g" ok_prog] in
  NoDup (map p_id (pl_all pl)) ∧
  ∃ w', Process pl w_init (Some 0) = Ok (w', Some 0, None) ∧ runs (w_log w') = ["a"; "b"; "g"].
Proof. split; [apply (bool_decide_eq_true_1 _); vm_compute; reflexivity|]. eexists. split; reflexivity. Qed.

(** ** C14 *)
Theorem C14_ignore_failure : ∀ p w pe w' pe' err,
  p_ignf p = true → pe_dropped pe = false → pp_process p w pe = Ok (w', pe', err) → err = None.
Proof.
  intros p w pe w' pe' err Hi Hd H.
  apply (proj1 (pp_process_spec _ _ _ _ _ _ Hd)) in H as (w1 & pe1 & [e|] & _ & H); [|naive_solver].
  destruct (p_ignm p && is_missing e); [naive_solver|]. destruct H as (w2 & r2 & _ & H).
  rewrite Hi in H. destruct r2; simpl in H; naive_solver.
Qed.
Print Assumptions C14_ignore_failure.

(** The handlers still run first: the state left is the one the handlers left. *)
Theorem C14_handlers_run_first : ∀ p w pe w1 pe1 e w' pe' err,
  p_ignf p = true → pe_dropped pe = false →
  run_prog (p_prog p) (inc w (p_id p) MIn) pe = Ok (w1, pe1, Some e) →
  (p_ignm p && is_missing e) = false →
  pp_process p w pe = Ok (w', pe', err) →
  ∃ w2 e2 m, on_failure_outcome (p_onf p) w1 pe1 e w2 pe' e2 ∧ w' = inc w2 (p_id p) m ∧
    err = None.
Proof.
  intros p w pe w1 pe1 e w' pe' err Hi Hd Hr Hm H.
  pose proof (C14_ignore_failure _ _ _ _ _ _ Hi Hd H) as ->.
  apply (proj1 (pp_process_spec _ _ _ _ _ _ Hd)) in H as (w1' & pe1' & r1 & Hr' & H).
  rewrite Hr in Hr'. injection Hr' as <- <- <-. rewrite Hm in H.
  destruct H as (w2 & r2 & Ho & H). apply run_list_onf in Ho.
  exists w2, r2. destruct (p_ignf p && is_Some_b r2); destruct H as [-> _]; by eexists.
Qed.
Print Assumptions C14_handlers_run_first.

Example C14_ex : ∃ w', pp_process (PProc "a" "" true false [simple "h" ok_prog; simple "i" fail_prog] fail_prog)
    w_init (mkPEvent (Some 0) false false) = Ok (w', mkPEvent (Some 0) false false, None) ∧
  runs (w_log w') = ["a"; "h"; "i"].
Proof. eexists. split; reflexivity. Qed.

(** ** C15 *)
Theorem C15_ignore_missing : ∀ p w pe w1 pe1 e,
  p_ignm p = true → is_missing e = true → pe_dropped pe = false →
  run_prog (p_prog p) (inc w (p_id p) MIn) pe = Ok (w1, pe1, Some e) →
  pp_process p w pe = Ok (inc w1 (p_id p) MOut, pe1, None).
Proof.
  intros p w pe w1 pe1 e Hi Hm Hd Hr. apply (pp_process_spec p w pe _ _ _ Hd).
  exists w1, pe1, (Some e). split; [done|]. by rewrite Hi, Hm.
Qed.
Print Assumptions C15_ignore_missing.

(** Any other error: the option makes no difference. *)
Theorem C15_other_errors : ∀ id cond ignf ignm onf c w pe w1 pe1 e,
  is_missing e = false → run_prog c (inc w id MIn) pe = Ok (w1, pe1, Some e) →
  pp_process (PProc id cond ignf ignm onf c) w pe = pp_process (PProc id cond ignf false onf c) w pe.
Proof.
  intros id cond ignf ignm onf c w pe w1 pe1 e Hm Hr. cbn [pp_process]. rewrite Hr, Hm.
  by rewrite andb_false_r.
Qed.
Print Assumptions C15_other_errors.

(** Which errors count as missing-key errors: ErrorKeyMissing at any wrapping depth. *)
Theorem C15_missing_errors : ∀ e,
  is_missing e = true ↔ ∃ prefixes k, e = fold_right EWrap (EKeyMissing k) prefixes.
Proof.
  intros e. split.
  - induction e as [s|m|p e IH|k]; simpl; intros H; try done.
    + destruct (IH H) as (ps & k & ->). by exists (p :: ps), k.
    + by exists [], k.
  - intros (ps & k & ->). by induction ps.
Qed.
Print Assumptions C15_missing_errors.

Example C15_ex : ∃ w', pp_process (PProc "a" "" false true [simple "h" ok_prog] missing_prog)
    w_init (mkPEvent (Some 0) false false) = Ok (w', mkPEvent (Some 0) false false, None) ∧
  runs (w_log w') = ["a"].
Proof. eexists. split; reflexivity. Qed.

(** ** C16 *)
Theorem C16_on_failure : ∀ p w pe w1 pe1 e w' pe' err,
  pe_dropped pe = false →
  run_prog (p_prog p) (inc w (p_id p) MIn) pe = Ok (w1, pe1, Some e) →
  (p_ignm p && is_missing e) = false → p_ignf p = false →
  pp_process p w pe = Ok (w', pe', err) →
  ∃ w2, w' = inc w2 (p_id p) MErrors ∧
    ((p_onf p = [] ∧ w2 = w1 ∧ pe' = pe1 ∧ err = Some e) ∨
     (p_onf p ≠ [] ∧ chain (p_onf p) w1 pe1 w2 pe' ∧ err = None) ∨
     (∃ e', stopped (p_onf p) w1 pe1 w2 pe' e' ∧ err = Some e')).
Proof.
  intros p w pe w1 pe1 e w' pe' err Hd Hr Hm Hf H.
  apply (proj1 (pp_process_spec _ _ _ _ _ _ Hd)) in H as (w1' & pe1' & r1 & Hr' & H).
  rewrite Hr in Hr'. injection Hr' as <- <- <-. rewrite Hm in H.
  destruct H as (w2 & r2 & Ho & H). apply run_list_onf in Ho. rewrite Hf in H. simpl in H.
  destruct H as [-> ->]. by exists w2.
Qed.
Print Assumptions C16_on_failure.

(** A successful processor runs no handler. *)
Theorem C16_no_failure_no_handlers : ∀ p w pe w1 pe1,
  run_prog (p_prog p) (inc w (p_id p) MIn) pe = Ok (w1, pe1, None) →
  pp_process p w pe = Ok (inc w1 (p_id p) MOut, pe1, None).
Proof. intros [] w pe w1 pe1 H. simpl in *. by rewrite H. Qed.
Print Assumptions C16_no_failure_no_handlers.

Example C16_ex :
  (∃ w', pp_process (PProc "a" "" false false [simple "h" ok_prog; simple "i" ok_prog] fail_prog)
     w_init (mkPEvent (Some 0) false false) = Ok (w', mkPEvent (Some 0) false false, None)) ∧
  (∃ w', pp_process (PProc "a" "" false false [simple "h" missing_prog; simple "i" ok_prog] fail_prog)
     w_init (mkPEvent (Some 0) false false) =
     Ok (w', mkPEvent (Some 0) false false, Some (EWrap "wrapped: " (EKeyMissing "k")))).
Proof. split; eexists; reflexivity. Qed.

(** ** C17 *)
Theorem C17_global_on_failure : ∀ pl w evt w' r err,
  Process pl w evt = Ok (w', r, err) →
  (∃ pe', chain (pl_processors pl) w (mkPEvent evt false false) w' pe' ∧ err = None) ∨
  (∃ w2 pe2 e pe', stopped (pl_processors pl) w (mkPEvent evt false false) w2 pe2 e ∧
     ((pl_onf pl = [] ∧ w' = w2 ∧ err = Some e) ∨
      (pl_onf pl ≠ [] ∧ chain (pl_onf pl) w2 pe2 w' pe' ∧ err = None ∧ r = evt) ∨
      (∃ e', stopped (pl_onf pl) w2 pe2 w' pe' e' ∧ err = Some e' ∧ r = None))).
Proof.
  intros pl w evt w' r err H. destruct (Process_cases _ _ _ _ _ _ H) as (pe' & -> & [[Hc ->]|Hc]).
  - left. by exists pe'.
  - right. destruct Hc as (before & p & after & w1 & pe1 & w2 & pe2 & e & Hl & Hch & Hp & Ho).
    exists w2, pe2, e, pe'. split; [by exists before, p, after, w1, pe1|].
    destruct Ho as [(? & ? & ? & ->)|[(? & ? & ->)|(e' & ? & ->)]]; [by left|by right; left|].
    right. right. by exists e'.
Qed.
Print Assumptions C17_global_on_failure.

(** No global handler starts when every top-level processor succeeds. *)
Theorem C17_not_run_on_success : ∀ pl w evt w' r err pe',
  NoDup (map p_id (pl_all pl)) → Process pl w evt = Ok (w', r, err) →
  chain (pl_processors pl) w (mkPEvent evt false false) w' pe' →
  ∃ lg, new_log w w' lg ∧ ∀ q m, q ∈ pps_all (pl_onf pl) → (p_id q, m) ∉ lg.
Proof.
  intros pl w evt w' r err pe' Hnd H Hc.
  destruct (chain_log (pl_processors pl) w (mkPEvent evt false false) w' pe' eq_refl Hc) as (lg & Hlg & Hin).
  exists lg. split; [done|]. intros q m Hq Hm. apply Hin in Hm.
  unfold pl_all in Hnd. rewrite map_app in Hnd.
  eapply NoDup_app_not_in in Hnd; [|exact Hm]. apply Hnd. by apply (elem_of_list_fmap_1 p_id).
Qed.
Print Assumptions C17_not_run_on_success.

Example C17_ex : ∃ w', Process (mkPipeline "p" [simple "a" fail_prog] [simple "g" ok_prog; simple "h" missing_prog])
   w_init (Some 0) = Ok (w', None, Some (EWrap "wrapped: " (EKeyMissing "k"))) ∧ runs (w_log w') = ["a"; "g"; "h"].
Proof. eexists. split; reflexivity. Qed.

(** ** C18 *)
Theorem C18_conservation : ∀ pls w0 w id,
  w_log w0 = [] → history pls w0 w →
  count id MIn (w_log w) =
  count id MOut (w_log w) + count id MErrors (w_log w) + count id MDiscarded (w_log w).
Proof. exact history_balanced. Qed.
Print Assumptions C18_conservation.

Theorem C18_counters_never_decrease : ∀ pls w0 w id m,
  history pls w0 w → count id m (w_log w0) ≤ count id m (w_log w).
Proof. exact history_monotone. Qed.
Print Assumptions C18_counters_never_decrease.

Example C18_ex : ∃ w, history [pl_recover] w_init w ∧ count "a" MIn (w_log w) = 2.
Proof.
  eexists. split.
  - eapply (hist_process _ _ _ pl_recover (Some 0));
      [eapply (hist_process _ _ _ pl_recover (Some 0)); [apply hist_nil|by left|vm_compute; reflexivity]
      |by left|vm_compute; reflexivity].
  - reflexivity.
Qed.

(** ** C19 *)
(** Exactly when a component counts an error (its own id not reused by its
    handlers).  Full statement wanted: only unrecovered, unignored errors are
    counted.  What is proved: ignored missing keys and ignored failing handlers are
    not counted, everything else that failed is, recovered or not. *)
Theorem C19_errors_counted_partial : ∀ p w pe w' pe' r w1 pe1 r1,
  pe_dropped pe = false → p_id p ∉ map p_id (pps_all (p_onf p)) →
  run_prog (p_prog p) (inc w (p_id p) MIn) pe = Ok (w1, pe1, r1) →
  pp_process p w pe = Ok (w', pe', r) →
  ∃ lg, new_log w w' lg ∧ count (p_id p) MIn lg = 1 ∧ count (p_id p) MDiscarded lg = 0 ∧
    (∃ failed : bool, count (p_id p) MErrors lg = (if failed then 1 else 0) ∧
      count (p_id p) MOut lg = (if failed then 0 else 1) ∧
      (failed = true ↔ ∃ err r2 w2 pe2, r1 = Some err ∧ (p_ignm p && is_missing err) = false ∧
         run_list pp_process (p_onf p) w1 pe1 (Some err) = Ok (w2, pe2, r2) ∧
         (p_ignf p && is_Some_b r2) = false)).
Proof. exact pp_process_own_count. Qed.
Print Assumptions C19_errors_counted_partial.

(** A failure its handlers recovered is counted as an error, and not as sent. *)
Theorem C19_recovered_errors_counted_refuted : ∃ pl w evt w',
  Process pl w evt = Ok (w', evt, None) ∧ runs (w_log w') = ["a"; "h"; "b"] ∧
  count "a" MErrors (w_log w') = 1 ∧ count "a" MOut (w_log w') = 0 ∧
  count "g" MIn (w_log w') = 0.
Proof. exists pl_recover, w_init, (Some 0). eexists. split_and!; reflexivity. Qed.
Print Assumptions C19_recovered_errors_counted_refuted.

(** ** C20, C21 *)
(** Removing every Cancel and Drop call from every processor changes nothing: not
    the result, not the heap, not the counters. *)
Theorem C20_cancel_and_drop_have_no_effect : ∀ pl w evt,
  Process (pl_quiet pl) w evt = Process pl w evt.
Proof. exact pl_quiet_same. Qed.
Print Assumptions C20_cancel_and_drop_have_no_effect.

Theorem C20_cancel_refuted : ∃ w',
  Process (mkPipeline "p" [simple "a" (PCancel (Ret None)); simple "b" ok_prog] []) w_init (Some 0) =
    Ok (w', Some 0, None) ∧ runs (w_log w') = ["a"; "b"].
Proof. eexists. split; reflexivity. Qed.
Print Assumptions C20_cancel_refuted.

Theorem C21_drop_refuted :
  (∃ w', Process pl_drop w_init (Some 0) = Ok (w', Some 0, None)) ∧
  (∃ w', Process pl_drop_err w_init (Some 0) = Ok (w', None, Some (EMsg "dropped")) ∧
     count "a" MDiscarded (w_log w') = 0).
Proof. split; eexists; [reflexivity|]. split; reflexivity. Qed.
Print Assumptions C21_drop_refuted.

(** No event is ever dropped or counted as discarded. *)
Theorem C21_nothing_is_ever_discarded : ∀ pl w evt w' r err,
  Process pl w evt = Ok (w', r, err) →
  ∃ lg, new_log w w' lg ∧ ∀ id, count id MDiscarded lg = 0.
Proof.
  intros pl w evt w' r err H. apply Process_pl in H as (pe' & H & _).
  destruct (pl_process_log (λ _ lg, ∀ id, count id MDiscarded lg = 0) pl w (mkPEvent evt false false) w' pe' err)
    as (l1 & l2 & Hl & H1 & H2); try done.
  - intros p ps l1 l2 H1 H2 id. by rewrite count_app, H1, H2.
  - intros p l m Hl Hm id.
    change ((p_id p, MIn) :: l ++ [(p_id p, m)]) with ([(p_id p, MIn)] ++ l ++ [(p_id p, m)]).
    rewrite !count_app, Hl, !count_one. destruct Hm; subst; by repeat destruct (decide _).
  - exists (l1 ++ l2). split; [done|]. intros id. by rewrite count_app, H1, H2.
Qed.
Print Assumptions C21_nothing_is_ever_discarded.

(** ** C22 *)
Theorem C22_at_most_once : ∀ pl w evt w' r err,
  NoDup (map p_id (pl_all pl)) → Process pl w evt = Ok (w', r, err) →
  ∃ lg, new_log w w' lg ∧ NoDup (runs lg) ∧ ∀ id, id ∈ runs lg → ∃ p, p ∈ pl_all pl ∧ p_id p = id.
Proof.
  intros pl w evt w' r err Hnd H. destruct (Process_runs _ _ _ _ _ _ H) as (lg & Hl & Hs).
  exists lg. split; [done|]. split; [by eapply sublist_nodup|].
  intros id Hid. eapply sublist_in in Hid; [|done].
  apply elem_of_list_fmap in Hid as (p & -> & Hp). by exists p.
Qed.
Print Assumptions C22_at_most_once.

(** ** C27 *)
Theorem C27_condition_ignored : ∀ (f : string → string → string) pl w evt,
  Process (pl_recond f pl) w evt = Process pl w evt.
Proof. exact pl_recond_same. Qed.
Print Assumptions C27_condition_ignored.

Example C27_ex : ∃ pl, pl_processors (pl_recond (λ _ _, "never") pl) ≠ pl_processors pl ∧
  ∃ w', Process pl w_init (Some 0) = Ok (w', Some 0, None) ∧ runs (w_log w') = ["a"; "h"; "b"].
Proof. exists pl_recover. split; [done|]. eexists. split; reflexivity. Qed.
