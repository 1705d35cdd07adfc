(** * Pipelines of built-in processors, whatever the state of an event: proofs.

    [showing w i m fp]: in [w] event [i] is in state [m], its containers being [fp].  If
    each processor does to the state what [single] says, a pipeline does what
    [run_pipe single] says. *)
From Verif Require Export PipeSpec PipelineFacts.

Lemma fresh_back h h' W l : stable h h' W → EventRefine.fresh h' l → EventRefine.fresh h l.
Proof. intros (_ & _ & H1 & H2). destruct l; simpl; lia. Qed.
Lemma holds_stable h h' W p t : holds h p t → stable h h' W → holds h' p t.
Proof.
  intros (v & Hv & Ht) (H & _). destruct (H _ _ Hv) as [Hv'|[_ Hty]]; [by exists v|].
  by apply scalar_tree_not_array in Ht.
Qed.
Lemma runs_as_mono h h' b c : (∀ p t, holds h p t → holds h' p t) → runs_as h b c → runs_as h' b c.
Proof. intros Hst H. destruct H; econstructor; try done; by apply Hst. Qed.
Lemma built_as_mono h h' b : (∀ p t, holds h p t → holds h' p t) → ∀ p, built_as h b p → built_as h' b p.
Proof.
  intros Hst. revert b. fix IH 3. intros b p H. destruct H as [id cond ignf ignm onf onf' b c Hr Hf].
  constructor; [by eapply runs_as_mono|]. revert onf onf' Hf. clear -IH Hst.
  fix IHl 3. intros onf onf' [|x y l l' Hx Hl]; constructor; [by apply IH|by apply IHl].
Qed.
Lemma built_as_stable h h' W b p : built_as h b p → stable h h' W → built_as h' b p.
Proof. intros H Hst. eapply built_as_mono; [|exact H]. intros. by eapply holds_stable. Qed.
Lemma pipe_as_mono h h' b pl : (∀ p t, holds h p t → holds h' p t) → pipe_as h b pl → pipe_as h' b pl.
Proof. intros Hm [H1 H2]. split; (eapply Forall2_impl; [eassumption|]); intros; by eapply built_as_mono. Qed.

Lemma bproc_ind' (P : bproc → Prop) :
  (∀ id ignf ignm onf b, Forall P onf → P (BProc id ignf ignm onf b)) → ∀ b, P b.
Proof.
  intros H. fix IH 1. intros [id ignf ignm onf b]. apply H. revert onf. fix IHl 1.
  intros [|x l]; [by apply List.Forall_nil|]. apply List.Forall_cons; [apply IH|apply IHl].
Qed.

Section gen.
Context {S : Type} (single : bconf → S → verdict (S * option goerr)) (showing : world → nat → S → list loc → Prop).
Context (showing_inc : ∀ w i m fp id mt, showing w i m fp → showing (inc w id mt) i m fp).
(** ** One processor *)
(** From [w], where event [i] is made of [fp], to [w'], where it shows [m']: it is made
    of old and new containers, and nothing else changed but the counters. *)
Definition gmoves (w w' : world) (i : nat) (fp : list loc) (m' : S) : Prop :=
  (∃ fp', showing w' i m' fp' ∧ ∀ l, l ∈ fp' → l ∈ fp ∨ EventRefine.fresh (w_heap w) l) ∧
  stable (w_heap w) (w_heap w') (λ l, l ∈ fp) ∧
  (∀ j, j ≠ i → w_events w' !! j = w_events w !! j) ∧ length (w_events w') = length (w_events w) ∧ w_env w' = w_env w.

Lemma moves_refl w i fp m : showing w i m fp → gmoves w w i fp m.
Proof. intros H. split_and!; try done; [exists fp; auto|apply stable_refl]. Qed.
Lemma moves_trans w1 w2 w3 i fp m2 m3 : gmoves w1 w2 i fp m2 →
  (∀ fp2, showing w2 i m2 fp2 → gmoves w2 w3 i fp2 m3) → gmoves w1 w3 i fp m3.
Proof.
  intros ((fp2 & Hs & Hfp) & Hst & Hj & Hl & He) H. destruct (H _ Hs) as ((fp3 & Hs3 & Hfp3) & Hst3 & Hj3 & Hl3 & He3).
  split_and!.
  - exists fp3. split; [done|]. intros l Hl'. destruct (Hfp3 _ Hl') as [Hl2|Hf]; [by apply Hfp|].
    right. by eapply fresh_back.
  - eapply stable_trans_fresh; [exact Hst|exact Hst3|]. exact Hfp.
  - intros j Hne. by rewrite Hj3, Hj.
  - congruence.
  - congruence.
Qed.
Lemma moves_inc w w' i fp m id mt : gmoves w w' i fp m → gmoves w (inc w' id mt) i fp m.
Proof using showing_inc. intros ((fp' & Hs & Hfp) & H). split; [|done]. exists fp'. split; [by apply showing_inc|done]. Qed.
Lemma moves_inc_l w w' i fp m id mt : gmoves (inc w id mt) w' i fp m → gmoves w w' i fp m.
Proof. done. Qed.
Definition gsteps_to (c : prog (option goerr)) (w : world) (pe : pevent) (i : nat) (fp : list loc) (x : verdict (S * option goerr)) : Prop :=
  match x with
  | Shares => True
  | Crashes => run_prog c w pe = Panic
  | Gives (m', err) => ∃ w', run_prog c w pe = Ok (w', pe, err) ∧ gmoves w w' i fp m' ∧ w_log w' = w_log w
  end.

Lemma steps_after c c' w w' pe i fp m x : run_prog c w pe = run_prog c' w' pe → gmoves w w' i fp m → w_log w' = w_log w →
  (∀ fp', showing w' i m fp' → gsteps_to c' w' pe i fp' x) → gsteps_to c w pe i fp x.
Proof.
  intros E Hm Hlg H. pose proof Hm as ((fp' & Hsh & _) & _). pose proof (H _ Hsh) as H1. unfold gsteps_to in *.
  destruct x as [[m' err]| |]; [|congruence|done]. destruct H1 as (w2 & Hrun & _ & Hlg2).
  exists w2. split; [congruence|]. split; [|congruence]. eapply moves_trans; [exact Hm|]. intros fp2 Hs2.
  destruct (H _ Hs2) as (w3 & Hrun3 & Hm3 & _). assert (w3 = w2) as -> by congruence. done.
Qed.

(** ** A pipeline *)
Definition grun_to (res : Outcome pres) (w : world) (pe : pevent) (i : nat) (fp : list loc) (x : verdict (S * option goerr * list (string * metric))) : Prop :=
  match x with
  | Shares => True
  | Crashes => res = Panic
  | Gives (m', err, lg) => ∃ w', res = Ok (w', pe, err) ∧ gmoves w w' i fp m' ∧ w_log w' = w_log w ++ lg
  end.
Lemma moves_sem w w' i fp m1 pe (res : Outcome pres) x : gmoves w w' i fp m1 →
  (∀ fp', showing w' i m1 fp' → grun_to res w' pe i fp' x) →
  match x with
  | Shares => True
  | Crashes => res = Panic
  | Gives (m', err, lg) => ∃ w2, res = Ok (w2, pe, err) ∧ gmoves w w2 i fp m' ∧ w_log w2 = w_log w' ++ lg
  end.
Proof.
  intros Hm H. pose proof Hm as ((fp' & Hsh & _) & _). pose proof (H _ Hsh) as H1. unfold grun_to in *.
  destruct x as [[[m' err] lg]| |]; [|done|done]. destruct H1 as (w2 & Hrun & _ & Hlg2).
  exists w2. split; [done|]. split; [|done]. eapply moves_trans; [exact Hm|]. intros fp2 Hs2.
  destruct (H _ Hs2) as (w3 & Hrun3 & Hm3 & _). assert (w3 = w2) as -> by congruence. done.
Qed.
Lemma moves_stable w w' i fp m : gmoves w w' i fp m → stable (w_heap w) (w_heap w') (λ l, l ∈ fp).
Proof. by intros (_ & H & _). Qed.
Context (conf_sem : ∀ b c w pe i m fp, runs_as (w_heap w) b c → pe_data pe = Some i → showing w i m fp → gsteps_to c w pe i fp (single b m)).
Lemma list_sem lb lp :
  Forall2 (λ b p, ∀ w pe i m fp, built_as (w_heap w) b p → pe_data pe = Some i → pe_dropped pe = false → showing w i m fp →
    grun_to (pp_process p w pe) w pe i fp (run_proc single b m)) lb lp →
  ∀ w pe i m fp err, Forall2 (built_as (w_heap w)) lb lp → pe_data pe = Some i → pe_dropped pe = false → showing w i m fp →
    grun_to (run_list pp_process lp w pe err) w pe i fp (in_turn (run_proc single) lb m err).
Proof.
  induction 1 as [|b p lb lp Hb _ IH]; intros w pe i m fp err Hf Hpe Hd Hs.
  - exists w. split; [done|]. split; [by apply moves_refl|by rewrite app_nil_r].
  - inversion Hf as [|? ? ? ? Hba Hf']; subst. cbn [run_list in_turn].
    pose proof (Hb w pe i m fp Hba Hpe Hd Hs) as H1. destruct (run_proc single b m) as [[[m1 err1] lg1]| |]; cbn [vbind grun_to] in *.
    + destruct H1 as (w1 & -> & Hm1 & Hlg1). destruct err1 as [e|].
      * exists w1. done.
      * assert (Forall2 (built_as (w_heap w1)) lb lp) as Hf1.
        { eapply Forall2_impl; [exact Hf'|]. intros ? ? ?. eapply built_as_stable; [done|]. by eapply moves_stable. }
        pose proof (moves_sem w w1 i fp m1 pe (run_list pp_process lp w1 pe None) (in_turn (run_proc single) lb m1 None) Hm1
          (λ fp' Hs', IH w1 pe i m1 fp' None Hf1 Hpe Hd Hs')) as H2.
        destruct (in_turn (run_proc single) lb m1 None) as [[[m2 err2] lg2]| |]; cbn [vbind grun_to]; [|done|done].
        destruct H2 as (w2 & Hrun & Hm2 & Hlg2). exists w2. split; [done|]. split; [done|].
        rewrite Hlg2, Hlg1. by rewrite app_assoc.
    + by rewrite H1.
    + done.
Qed.
Lemma gproc_sem b : ∀ p w pe i m fp, built_as (w_heap w) b p → pe_data pe = Some i → pe_dropped pe = false → showing w i m fp →
  grun_to (pp_process p w pe) w pe i fp (run_proc single b m).
Proof.
  induction b as [id ignf ignm onf b IH] using bproc_ind'. intros p w pe i m fp Hb Hpe Hd Hs.
  inversion Hb as [? cond ? ? ? onf' ? c Hr Hf]; subst. cbn [pp_process run_proc].
  assert (runs_as (w_heap (inc w id MIn)) b c) as Hr' by done. assert (showing (inc w id MIn) i m fp) as Hs' by (by apply showing_inc).
  pose proof (conf_sem b c (inc w id MIn) pe i m fp Hr' Hpe Hs') as H1.
  destruct (single b m) as [[m1 err]| |]; cbn [vbind grun_to gsteps_to] in *; [|by rewrite H1|done].
  destruct H1 as (w1 & -> & Hm1 & Hlg1). apply moves_inc_l in Hm1.
  assert (w_log w1 = w_log w ++ [(id, MIn)]) as Hlg by (rewrite Hlg1; done). clear Hlg1.
  destruct err as [e|].
  2:{ exists (inc w1 id MOut). split; [done|]. split; [by apply moves_inc|]. cbn [inc w_log]. by rewrite Hlg, <- app_assoc. }
  rewrite Hd. destruct (ignm && is_missing e).
  { exists (inc w1 id MOut). split; [done|]. split; [by apply moves_inc|]. cbn [inc w_log]. by rewrite Hlg, <- app_assoc. }
  assert (Forall2 (built_as (w_heap w1)) onf onf') as Hf1.
  { eapply Forall2_impl; [exact Hf|]. intros ? ? ?. eapply built_as_stable; [done|]. by eapply moves_stable. }
  assert (Forall2 (λ b p, ∀ w pe i m fp, built_as (w_heap w) b p → pe_data pe = Some i → pe_dropped pe = false → showing w i m fp →
    grun_to (pp_process p w pe) w pe i fp (run_proc single b m)) onf onf') as Hall.
  { clear -IH Hf. induction Hf as [|x y l l' Hxy Hl IHl]; constructor.
    - rewrite Forall_cons in IH. destruct IH as [IH _]. intros. by apply IH.
    - apply IHl. rewrite Forall_cons in IH. by destruct IH. }
  pose proof (moves_sem w w1 i fp m1 pe (run_list pp_process onf' w1 pe (Some e)) (in_turn (run_proc single) onf m1 (Some e)) Hm1
          (λ fp' Hs', list_sem onf onf' Hall w1 pe i m1 fp' (Some e) Hf1 Hpe Hd Hs')) as H2.
  destruct (in_turn (run_proc single) onf m1 (Some e)) as [[[m2 err2] lg]| |]; cbn [vbind grun_to]; [|by rewrite H2|done].
  destruct H2 as (w2 & -> & Hm2 & Hlg2).
  assert (∀ mt, w_log (inc w2 id mt) = w_log w ++ (id, MIn) :: lg ++ [(id, mt)]) as Hlog.
  { intros mt. cbn [inc w_log]. rewrite Hlg2, Hlg. by rewrite <- !app_assoc. }
  destruct err2 as [e2|]; [rewrite andb_true_r; destruct ignf|rewrite andb_false_r]; cbn [grun_to];
    eexists; (split; [done|split; [by apply moves_inc|apply Hlog]]).
Qed.
Lemma procs_sem lb lp w pe i m fp err : Forall2 (built_as (w_heap w)) lb lp → pe_data pe = Some i → pe_dropped pe = false →
  showing w i m fp → grun_to (run_list pp_process lp w pe err) w pe i fp (in_turn (run_proc single) lb m err).
Proof.
  intros Hf. apply list_sem; [|done]. eapply Forall2_impl; [exact Hf|]. intros. by apply gproc_sem.
Qed.
Lemma gpipe_sem b pl w pe i m fp : pipe_as (w_heap w) b pl → pe_data pe = Some i → pe_dropped pe = false →
  showing w i m fp → grun_to (pl_process pl w pe) w pe i fp (run_pipe single b m).
Proof.
  intros [Hf1 Hf2] Hpe Hd Hs. unfold pl_process, run_pipe.
  pose proof (procs_sem _ _ w pe i m fp None Hf1 Hpe Hd Hs) as H1.
  destruct (in_turn (run_proc single) (bp_processors b) m None) as [[[m1 err] lg1]| |]; cbn [vbind grun_to] in *; [|by rewrite H1|done].
  destruct H1 as (w1 & -> & Hm1 & Hlg1). destruct err as [e|]; [|by exists w1].
  assert (Forall2 (built_as (w_heap w1)) (bp_on_failure b) (pl_onf pl)) as Hf3.
  { eapply Forall2_impl; [exact Hf2|]. intros ? ? ?. eapply built_as_stable; [done|]. by eapply moves_stable. }
  pose proof (moves_sem w w1 i fp m1 pe (run_list pp_process (pl_onf pl) w1 pe (Some e)) _ Hm1
          (λ fp' Hs', procs_sem _ _ w1 pe i m1 fp' (Some e) Hf3 Hpe Hd Hs')) as H2.
  destruct (in_turn (run_proc single) (bp_on_failure b) m1 (Some e)) as [[[m2 err2] lg]| |]; cbn [vbind grun_to]; [|by rewrite H2|done].
  destruct H2 as (w2 & -> & Hm2 & Hlg2). exists w2. split; [done|]. split; [done|]. by rewrite Hlg2, Hlg1, app_assoc.
Qed.

End gen.
Arguments moves_refl {S showing}. Arguments moves_trans {S showing}. Arguments steps_after {S showing}.
Arguments moves_stable {S showing}. Arguments moves_inc {S showing}. Arguments moves_inc_l {S showing}.

(** ** What running keeps *)
(** [P] if the verdict is a result, [C] if it is a crash. *)
Definition fineC {A} (C : Prop) (x : verdict A) (P : A → Prop) : Prop := match x with Gives a => P a | Crashes => C | Shares => True end.
Notation fine := (fineC False).
Section gkeeps.
Context {S : Type} (single : bconf → S → verdict (S * option goerr)) (C : Prop) (I : S → Prop) (ok : bconf → Prop).
Context (single_keeps : ∀ b m, ok b → I m → fineC C (single b m) (λ '(m', _), I m')).
Lemma in_turn_keeps (step : bproc → S → verdict (S * option goerr * list (string * metric))) l : 
  Forall (λ b, ∀ m, I m → fineC C (step b m) (λ '(m', _, _), I m')) l →
  ∀ m err, I m → fineC C (in_turn step l m err) (λ '(m', _, _), I m').
Proof.
  induction 1 as [|b l Hb _ IH]; intros m err Hm; [done|]. cbn [in_turn]. specialize (Hb m Hm).
  destruct (step b m) as [[[m1 err1] lg1]| |]; [|done|done]. cbn [vbind]. destruct err1; [done|].
  specialize (IH m1 None Hb). destruct (in_turn step l m1 None) as [[[m2 err2] lg2]| |]; done.
Qed.
Lemma run_proc_keeps b : Forall ok (confs b) → ∀ m, I m → fineC C (run_proc single b m) (λ '(m', _, _), I m').
Proof.
  induction b as [id ignf ignm onf c IH] using bproc_ind'. intros Hf m Hm. cbn [confs] in Hf.
  apply Forall_cons in Hf as [Hc Hl]. cbn [run_proc]. pose proof (single_keeps c m Hc Hm) as H1.
  destruct (single c m) as [[m1 err]| |]; [|done|done]. cbn [vbind]. destruct err as [e|]; [|done]. destruct (_ && _); [done|].
  assert (fineC C (in_turn (run_proc single) onf m1 (Some e)) (λ '(m', _, _), I m')) as H2.
  { apply in_turn_keeps; [|done]. clear -IH Hl. induction IH as [|b l Hb _ IHl]; [by apply List.Forall_nil|].
    cbn [map concat] in Hl. apply Forall_app in Hl as [Hl1 Hl2]. apply List.Forall_cons; [by apply Hb|by apply IHl]. }
  destruct (in_turn (run_proc single) onf m1 (Some e)) as [[[m2 err2] lg2]| |]; [|done|done]. cbn [vbind].
  destruct err2; [destruct ignf|]; done.
Qed.
Lemma procs_keeps l : Forall ok (concat (map confs l)) → ∀ m err, I m → fineC C (in_turn (run_proc single) l m err) (λ '(m', _, _), I m').
Proof.
  intros Hl. apply in_turn_keeps. induction l as [|b l IH]; [by apply List.Forall_nil|]. cbn [map concat] in Hl.
  apply Forall_app in Hl as [Hl1 Hl2]. apply List.Forall_cons; [by apply run_proc_keeps|by apply IH].
Qed.
Lemma run_pipe_keeps b : Forall ok (pipe_confs b) → ∀ m, I m → fineC C (run_pipe single b m) (λ '(m', _, _), I m').
Proof.
  intros Hf m Hm. apply Forall_app in Hf as [Hf1 Hf2]. unfold run_pipe. pose proof (procs_keeps _ Hf1 m None Hm) as H1.
  destruct (in_turn (run_proc single) (bp_processors b) m None) as [[[m1 err] lg1]| |]; [|done|done]. cbn [vbind].
  destruct err as [e|]; [|done]. pose proof (procs_keeps _ Hf2 m1 (Some e) H1) as H2.
  by destruct (in_turn (run_proc single) (bp_on_failure b) m1 (Some e)) as [[[m2 err2] lg2]| |].
Qed.
End gkeeps.
Section gshares.
Context {S : Type} (single : bconf → S → verdict (S * option goerr)) (ok : bconf → Prop).
Context (single_shares : ∀ b m, ok b → single b m ≠ Shares).
Lemma in_turn_shares (step : bproc → S → verdict (S * option goerr * list (string * metric))) l : Forall (λ b, ∀ m, step b m ≠ Shares) l →
  ∀ m err, in_turn step l m err ≠ Shares.
Proof.
  induction 1 as [|b l Hb _ IH]; intros m err; [done|]. cbn [in_turn]. specialize (Hb m).
  destruct (step b m) as [[[m1 err1] lg1]| |]; [|done|done]. cbn [vbind]. destruct err1; [done|].
  specialize (IH m1 None). destruct (in_turn step l m1 None) as [[[m2 err2] lg2]| |]; done.
Qed.
Lemma run_proc_shares b : Forall ok (confs b) → ∀ m, run_proc single b m ≠ Shares.
Proof.
  induction b as [id ignf ignm onf c IH] using bproc_ind'. intros Hf m. cbn [confs] in Hf.
  apply Forall_cons in Hf as [Hc Hl]. cbn [run_proc]. pose proof (single_shares c m Hc) as H1.
  destruct (single c m) as [[m1 err]| |]; [|done|done]. cbn [vbind]. destruct err as [e|]; [|done]. destruct (_ && _); [done|].
  assert (in_turn (run_proc single) onf m1 (Some e) ≠ Shares) as H2.
  { apply in_turn_shares. clear -IH Hl. induction IH as [|b l Hb _ IHl]; [by apply List.Forall_nil|].
    cbn [map concat] in Hl. apply Forall_app in Hl as [Hl1 Hl2]. apply List.Forall_cons; [by apply Hb|by apply IHl]. }
  destruct (in_turn (run_proc single) onf m1 (Some e)) as [[[m2 err2] lg2]| |]; [|done|done]. cbn [vbind].
  destruct err2; [destruct ignf|]; done.
Qed.
Lemma procs_shares l : Forall ok (concat (map confs l)) → ∀ m err, in_turn (run_proc single) l m err ≠ Shares.
Proof.
  intros Hl. apply in_turn_shares. induction l as [|b l IH]; [by apply List.Forall_nil|]. cbn [map concat] in Hl.
  apply Forall_app in Hl as [Hl1 Hl2]. apply List.Forall_cons; [by apply run_proc_shares|by apply IH].
Qed.
Lemma run_pipe_shares b : Forall ok (pipe_confs b) → ∀ m, run_pipe single b m ≠ Shares.
Proof.
  intros Hf m. apply Forall_app in Hf as [Hf1 Hf2]. unfold run_pipe. pose proof (procs_shares _ Hf1 m None) as H1.
  destruct (in_turn (run_proc single) (bp_processors b) m None) as [[[m1 err] lg1]| |]; [|done|done]. cbn [vbind].
  destruct err as [e|]; [|done]. pose proof (procs_shares _ Hf2 m1 (Some e)) as H2.
  by destruct (in_turn (run_proc single) (bp_on_failure b) m1 (Some e)) as [[[m2 err2] lg2]| |].
Qed.

End gshares.
