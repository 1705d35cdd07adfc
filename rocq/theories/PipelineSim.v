(** * More lemmas about pipelines: histories, simulations, examples. *)
From Verif Require Export PipelineFacts.

(** ** Histories *)
(** What can happen to the world over the life of a program that uses the
    pipelines [pls]: a pipeline processes an event without panicking, or anything
    else happens that does not touch the counters. *)
Inductive history (pls : list pipeline) (w0 : world) : world → Prop :=
| hist_nil : history pls w0 w0
| hist_process w pl evt w' r err :
    history pls w0 w → pl ∈ pls → Process pl w evt = Ok (w', r, err) → history pls w0 w'
| hist_other w w' : history pls w0 w → w_log w' = w_log w → history pls w0 w'.

Lemma history_balanced pls w0 w id : w_log w0 = [] → history pls w0 w → balanced id (w_log w).
Proof.
  intros H0 H. induction H as [|w pl evt w' r err _ IH _ HP|w w' _ IH Hl].
  - by rewrite H0.
  - destruct (Process_balanced _ _ _ _ _ _ id HP) as (lg & Hlg & Hb). rewrite Hlg. by apply balanced_app.
  - by rewrite Hl.
Qed.

Lemma history_monotone pls w0 w id m :
  history pls w0 w → count id m (w_log w0) ≤ count id m (w_log w).
Proof.
  intros H. induction H as [|w pl evt w' r err _ IH _ HP|w w' _ IH Hl]; [done| |by rewrite Hl].
  apply Process_pl in HP as (pe' & HP & _). apply pl_process_frame in HP as ([l Hl] & _).
  rewrite Hl, count_app. lia.
Qed.

(** ** Simulation up to the cancelled flag *)
Definition pe_eqv (a b : pevent) : Prop := pe_data a = pe_data b ∧ pe_dropped a = pe_dropped b.

Definition res_eqv {A} (o1 o2 : Outcome (world * pevent * A)) : Prop :=
  match o1, o2 with
  | Panic, Panic => True
  | Ok (w1, pe1, a1), Ok (w2, pe2, a2) => w1 = w2 ∧ pe_eqv pe1 pe2 ∧ a1 = a2
  | _, _ => False
  end.

Lemma res_eqv_ok {A} w pe1 pe2 (a : A) : pe_eqv pe1 pe2 → res_eqv (Ok (w, pe1, a)) (Ok (w, pe2, a)).
Proof. intros [H1 H2]. by split_and!. Qed.

Inductive sim : pproc → pproc → Prop :=
| sim_intro id c1 c2 ignf ignm onf1 onf2 g1 g2 :
    Forall2 sim onf1 onf2 →
    (∀ w pe1 pe2, pe_eqv pe1 pe2 → res_eqv (run_prog g1 w pe1) (run_prog g2 w pe2)) →
    sim (PProc id c1 ignf ignm onf1 g1) (PProc id c2 ignf ignm onf2 g2).

Lemma run_list_sim l1 l2 :
  Forall2 (λ p q, ∀ w pe1 pe2, pe_eqv pe1 pe2 → res_eqv (pp_process p w pe1) (pp_process q w pe2)) l1 l2 →
  ∀ w pe1 pe2 err, pe_eqv pe1 pe2 →
    res_eqv (run_list pp_process l1 w pe1 err) (run_list pp_process l2 w pe2 err).
Proof.
  induction 1 as [|p q l1 l2 Hp _ IH]; intros w pe1 pe2 err He; simpl; [done|].
  specialize (Hp w pe1 pe2 He).
  destruct (pp_process p w pe1) as [[[w1 pa] [e1|]]|], (pp_process q w pe2) as [[[w2 pb] [e2|]]|];
    simpl in Hp; destruct Hp as (-> & Hpe & Heq) || done; simplify_eq; [by apply res_eqv_ok|].
  by apply IH.
Qed.

Lemma sim_process p : ∀ q, sim p q → ∀ w pe1 pe2, pe_eqv pe1 pe2 →
  res_eqv (pp_process p w pe1) (pp_process q w pe2).
Proof.
  induction p as [id cond ignf ignm onf c IH] using pproc_ind'. intros q Hs w pe1 pe2 He.
  inversion Hs as [? ? c2 ? ? ? onf2 ? g2 Honf Hg]; subst. cbn [pp_process].
  specialize (Hg (inc w id MIn) pe1 pe2 He).
  destruct (run_prog c _ pe1) as [[[w1 pa] [e1|]]|], (run_prog g2 _ pe2) as [[[w2 pb] [e2|]]|];
    simpl in Hg; destruct Hg as (-> & Hpe & Heq) || done; simplify_eq; [|by apply res_eqv_ok].
  destruct Hpe as [Hda Hdr]. rewrite Hdr.
  destruct (pe_dropped pb) eqn:Hb; [apply res_eqv_ok; split; congruence|].
  destruct (ignm && is_missing e2); [apply res_eqv_ok; split; congruence|].
  assert (Forall2 (λ p q, ∀ w pe1 pe2, pe_eqv pe1 pe2 → res_eqv (pp_process p w pe1) (pp_process q w pe2)) onf onf2) as HF.
  { clear -IH Honf. induction Honf as [|a b l1 l2 Hab _ IHl]; [constructor|].
    apply Forall_cons in IH as [Ha IH]. constructor; [|by apply IHl]. by apply Ha. }
  assert (pe_eqv pa pb) as Hab by (split; congruence).
  pose proof (run_list_sim _ _ HF w2 pa pb (Some e2) Hab) as Hr.
  destruct (run_list _ onf _ _ _) as [[[w3 pc] r3]|], (run_list _ onf2 _ _ _) as [[[w4 pd] r4]|];
    simpl in Hr; destruct Hr as (-> & Hpe & ->) || done.
  destruct (ignf && _); by apply res_eqv_ok.
Qed.

Lemma sim_list_process l1 l2 : Forall2 sim l1 l2 → ∀ w pe1 pe2 err, pe_eqv pe1 pe2 →
  res_eqv (run_list pp_process l1 w pe1 err) (run_list pp_process l2 w pe2 err).
Proof.
  intros H. apply run_list_sim. eapply Forall2_impl; [exact H|]. intros p q. apply sim_process.
Qed.

Lemma sim_Process pl1 pl2 w evt :
  Forall2 sim (pl_processors pl1) (pl_processors pl2) → Forall2 sim (pl_onf pl1) (pl_onf pl2) →
  Process pl1 w evt = Process pl2 w evt.
Proof.
  intros H1 H2. unfold Process, pl_process.
  pose proof (sim_list_process _ _ H1 w (mkPEvent evt false false) (mkPEvent evt false false) None
                (conj eq_refl eq_refl)) as Hr.
  destruct (run_list _ (pl_processors pl1) _ _ _) as [[[w1 pa] [e1|]]|],
           (run_list _ (pl_processors pl2) _ _ _) as [[[w2 pb] [e2|]]|];
    simpl in Hr; destruct Hr as (-> & Hpe & Heq) || done; simplify_eq.
  - pose proof (sim_list_process _ _ H2 w2 pa pb (Some e2) Hpe) as Hr.
    destruct (run_list _ (pl_onf pl1) _ _ _) as [[[w3 pc] r3]|],
             (run_list _ (pl_onf pl2) _ _ _) as [[[w4 pd] r4]|];
      simpl in Hr; destruct Hr as (-> & [Hd Hdr] & ->) || done.
    by rewrite Hd, Hdr.
  - destruct Hpe as [Hd Hdr]. by rewrite Hd, Hdr.
Qed.

(** *** Programs without Cancel and Drop *)
Fixpoint quiet {A} (c : prog A) : prog A :=
  match c with
  | Ret a => Ret a
  | PPut key v k => PPut key v (λ a b, quiet (k a b))
  | PTryPut key v k => PTryPut key v (λ a b, quiet (k a b))
  | PGet key k => PGet key (λ a, quiet (k a))
  | PDelete key k => PDelete key (λ a, quiet (k a))
  | PCancel k => quiet k
  | PDrop k => quiet k
  | PNew v k => PNew v (λ a, quiet (k a))
  | PNewMap k => PNewMap (λ a, quiet (k a))
  | PLoad p k => PLoad p (λ a, quiet (k a))
  | PStore p v k => PStore p v (quiet k)
  | PMapRead r k => PMapRead r (λ a, quiet (k a))
  | PMapWrite r key v k => PMapWrite r key v (quiet k)
  | PMapDelete r key k => PMapDelete r key (quiet k)
  | PInput k => PInput (λ a, quiet (k a))
  | PPanic => PPanic
  end.

Lemma evt_of_eqv w pe1 pe2 : pe_eqv pe1 pe2 → evt_of w pe1 = evt_of w pe2.
Proof. intros [H _]. unfold evt_of. by rewrite H. Qed.

Lemma quiet_run {A} (c : prog A) : ∀ w pe1 pe2, pe_eqv pe1 pe2 →
  res_eqv (run_prog (quiet c) w pe1) (run_prog c w pe2).
Proof.
  induction c; intros w pe1 pe2 He; simpl;
    rewrite ?(evt_of_eqv w pe1 pe2 He);
    repeat first
      [ done
      | match goal with IH : context [res_eqv] |- _ => apply IH; done end
      | match goal with |- context [match ?x with _ => _ end] =>
          lazymatch x with
          | context [match _ with _ => _ end] => fail
          | run_prog _ _ _ => fail
          | _ => destruct x
          end end ].
Qed.

Lemma quiet_run_same {A} (c : prog A) w pe1 pe2 : pe_eqv pe1 pe2 →
  res_eqv (run_prog c w pe1) (run_prog c w pe2).
Proof.
  intros He. pose proof (quiet_run c w pe1 pe1 (conj eq_refl eq_refl)) as H1.
  pose proof (quiet_run c w pe1 pe2 He) as H2.
  destruct (run_prog (quiet c) w pe1) as [[[wq pq] aq]|],
    (run_prog c w pe1) as [[[w1 p1] a1]|], (run_prog c w pe2) as [[[w2 p2] a2]|]; simpl in *; try done.
  destruct H1 as (-> & [Hd1 Hr1] & ->), H2 as (-> & [Hd2 Hr2] & ->). split; [done|]. split; [|done].
  split; congruence.
Qed.

Fixpoint pp_quiet (p : pproc) : pproc :=
  match p with
  | PProc id c f m onf g => PProc id c f m (map pp_quiet onf) (quiet g)
  end.
Definition pl_quiet (pl : pipeline) : pipeline :=
  mkPipeline (pl_id pl) (map pp_quiet (pl_processors pl)) (map pp_quiet (pl_onf pl)).

Lemma pp_quiet_sim p : sim (pp_quiet p) p.
Proof.
  induction p as [id cond ignf ignm onf c IH] using pproc_ind'. simpl. constructor.
  - induction IH as [|q l Hq _ IHl]; simpl; by constructor.
  - intros. by apply quiet_run.
Qed.

Lemma pl_quiet_same pl w evt : Process (pl_quiet pl) w evt = Process pl w evt.
Proof.
  apply sim_Process; simpl.
  - induction (pl_processors pl) as [|p l IH]; simpl; constructor; [apply pp_quiet_sim|done].
  - induction (pl_onf pl) as [|p l IH]; simpl; constructor; [apply pp_quiet_sim|done].
Qed.

(** *** Pipelines with other conditions *)
Fixpoint pp_recond (f : string → string → string) (p : pproc) : pproc :=
  match p with
  | PProc id c ignf ignm onf g => PProc id (f id c) ignf ignm (map (pp_recond f) onf) g
  end.
Definition pl_recond (f : string → string → string) (pl : pipeline) : pipeline :=
  mkPipeline (pl_id pl) (map (pp_recond f) (pl_processors pl)) (map (pp_recond f) (pl_onf pl)).

Lemma pp_recond_sim f p : sim (pp_recond f p) p.
Proof.
  induction p as [id cond ignf ignm onf c IH] using pproc_ind'. simpl. constructor.
  - induction IH as [|q l Hq _ IHl]; simpl; by constructor.
  - intros. by apply quiet_run_same.
Qed.

Lemma pl_recond_same f pl w evt : Process (pl_recond f pl) w evt = Process pl w evt.
Proof.
  apply sim_Process; simpl.
  - induction (pl_processors pl) as [|p l IH]; simpl; constructor; [apply pp_recond_sim|done].
  - induction (pl_onf pl) as [|p l IH]; simpl; constructor; [apply pp_recond_sim|done].
Qed.

(** ** Counting *)
Lemma count_not_in id m l : (∀ m', (id, m') ∉ l) → count id m l = 0.
Proof.
  intros H. unfold count. induction l as [|[i m'] l IH]; [done|].
  rewrite filter_cons. destruct (decide _) as [Heq|]; simplify_eq.
  - exfalso. apply (H m). by left.
  - apply IH. intros m'' Hin. apply (H m''). by right.
Qed.

(** Own entries of one run of a processor whose id its handlers do not carry. *)
Lemma pp_process_own_count p w pe w' pe' r w1 pe1 r1 :
  pe_dropped pe = false → p_id p ∉ map p_id (pps_all (p_onf p)) →
  run_prog (p_prog p) (inc w (p_id p) MIn) pe = Ok (w1, pe1, r1) →
  pp_process p w pe = Ok (w', pe', r) →
  ∃ lg, new_log w w' lg ∧ count (p_id p) MIn lg = 1 ∧
    count (p_id p) MDiscarded lg = 0 ∧
    (∃ failed : bool, count (p_id p) MErrors lg = (if failed then 1 else 0) ∧
      count (p_id p) MOut lg = (if failed then 0 else 1) ∧
      (failed = true ↔ ∃ err r2 w2 pe2, r1 = Some err ∧ (p_ignm p && is_missing err) = false ∧
         run_list pp_process (p_onf p) w1 pe1 (Some err) = Ok (w2, pe2, r2) ∧
         (p_ignf p && is_Some_b r2) = false)).
Proof.
  intros Hd Hid Hrun H. apply (proj1 (pp_process_spec _ _ _ _ _ _ Hd)) in H as (w1' & pe1' & r1' & H1 & H2).
  rewrite Hrun in H1. injection H1 as <- <- <-.
  pose proof (run_prog_frame _ _ _ _ _ _ Hrun) as (Hl & _ & Hd1 & _). simpl in Hl. rewrite Hd in Hd1.
  destruct r1 as [err|].
  - destruct (p_ignm p && is_missing err) eqn:Em.
    + destruct H2 as (-> & -> & ->). exists [(p_id p, MIn); (p_id p, MOut)].
      split; [unfold new_log; simpl; by rewrite Hl, <-app_assoc|].
      unfold count. rewrite !filter_cons, !filter_nil.
      repeat destruct (decide _); simplify_eq; simpl; split_and!; try done.
      exists false. split_and!; try done. split; [done|].
      intros (err' & r2 & w2 & pe2 & [= <-] & H & _). congruence.
    + destruct H2 as (w2 & r2 & Hh & H3).
      destruct (pps_log_ids _ _ _ _ _ _ _ Hd1 Hh) as (lg & Hlg & Hin).
      assert (∀ m, count (p_id p) m lg = 0) as Hz.
      { intros m. apply count_not_in. intros m' Hm. by apply Hin in Hm. }
      unfold new_log in Hlg.
      destruct (p_ignf p && is_Some_b r2) eqn:Ef; destruct H3 as [-> ->].
      * exists ([(p_id p, MIn)] ++ lg ++ [(p_id p, MOut)]).
        split; [unfold new_log; simpl; by rewrite Hlg, Hl, <-!app_assoc|].
        rewrite !count_app, !Hz, !count_one.
        repeat destruct (decide _); simplify_eq; split_and!; try done.
        exists false. split_and!; try done.
        split; [done|]. intros (err' & r2' & w2' & pe2' & [= <-] & _ & Hh' & Ef').
        rewrite Hh in Hh'. injection Hh' as <- <- <-. congruence.
      * exists ([(p_id p, MIn)] ++ lg ++ [(p_id p, MErrors)]).
        split; [unfold new_log; simpl; by rewrite Hlg, Hl, <-!app_assoc|].
        rewrite !count_app, !Hz, !count_one.
        repeat destruct (decide _); simplify_eq; split_and!; try done.
        exists true. split_and!; try done.
        split; [|done]. intros _. by exists err, r2, w2, pe'.
  - destruct H2 as (-> & -> & ->). exists [(p_id p, MIn); (p_id p, MOut)].
    split; [unfold new_log; simpl; by rewrite Hl, <-app_assoc|].
    unfold count. rewrite !filter_cons, !filter_nil.
    repeat destruct (decide _); simplify_eq; simpl; split_and!; try done.
    exists false. split_and!; try done. split; [done|].
    intros (err' & r2 & w2 & pe2 & [=] & _).
Qed.
