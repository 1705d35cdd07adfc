(** * Lemmas about running pipelines. *)
From Verif Require Export Pipeline.

(** ** Induction over processor trees *)
Section pproc_rect.
  Context (P : pproc → Prop).
  Context (HP : ∀ id cond ignf ignm onf c, Forall P onf → P (PProc id cond ignf ignm onf c)).
  Fixpoint pproc_ind' (p : pproc) : P p :=
    match p with
    | PProc id cond ignf ignm onf c =>
        HP id cond ignf ignm onf c
          ((fix go (l : list pproc) : Forall P l :=
              match l with [] => @List.Forall_nil _ P | q :: l' => @List.Forall_cons _ P q l' (pproc_ind' q) (go l') end) onf)
    end.
End pproc_rect.

Lemma pp_all_eq id cond ignf ignm onf c :
  pp_all (PProc id cond ignf ignm onf c) = PProc id cond ignf ignm onf c :: pps_all onf.
Proof.
  simpl. f_equal. unfold pps_all. induction onf as [|q l IH]; simpl; [done|by f_equal].
Qed.

Lemma pps_all_cons p l : pps_all (p :: l) = pp_all p ++ pps_all l.
Proof. done. Qed.

Lemma pps_all_one p : pps_all [p] = pp_all p.
Proof. unfold pps_all. simpl. by rewrite app_nil_r. Qed.

Lemma pps_all_app l1 l2 : pps_all (l1 ++ l2) = pps_all l1 ++ pps_all l2.
Proof. unfold pps_all. by rewrite map_app, concat_app. Qed.

(** ** What a program can do to the pipelineEvent and the log *)
Lemma run_prog_frame {A} (c : prog A) w pe w' pe' a :
  run_prog c w pe = Ok (w', pe', a) →
  w_log w' = w_log w ∧ pe_data pe' = pe_data pe ∧ pe_dropped pe' = pe_dropped pe ∧
  length (w_events w') = length (w_events w).
Proof.
  revert w pe.
  induction c; intros w pe Hrun; simpl in Hrun;
    repeat match goal with
    | H : Ok _ = Ok _ |- _ => injection H as <- <- <-; done
    | H : Panic = Ok _ |- _ => discriminate H
    | IH : ∀ _ w pe, run_prog _ w pe = _ → _, H : run_prog _ _ _ = Ok _ |- _ => apply IH in H
    | IH : ∀ _ _ w pe, run_prog _ w pe = _ → _, H : run_prog _ _ _ = Ok _ |- _ => apply IH in H
    | IH : ∀ w pe, run_prog _ w pe = _ → _, H : run_prog _ _ _ = Ok _ |- _ => apply IH in H
    | H : context [match ?x with _ => _ end] |- _ =>
        lazymatch x with context [match _ with _ => _ end] => fail | _ => destruct x eqn:? end
    end; simpl in *; rewrite ?insert_length in *; try done.
Qed.

(** ** Frames of pp_process *)
Definition frame_ok (w : world) (pe : pevent) (w' : world) (pe' : pevent) : Prop :=
  w_log w `prefix_of` w_log w' ∧ pe_data pe' = pe_data pe ∧ pe_dropped pe' = pe_dropped pe ∧
  length (w_events w') = length (w_events w).

Lemma frame_ok_trans w pe w1 pe1 w2 pe2 :
  frame_ok w pe w1 pe1 → frame_ok w1 pe1 w2 pe2 → frame_ok w pe w2 pe2.
Proof. intros (?&?&?&?) (?&?&?&?). split_and!; [by etrans|congruence|congruence|congruence]. Qed.

Lemma frame_ok_refl w pe : frame_ok w pe w pe.
Proof. by split_and!. Qed.

Lemma frame_ok_inc w pe w1 pe1 id m : frame_ok w pe w1 pe1 → frame_ok w pe (inc w1 id m) pe1.
Proof. intros (?&?&?&?). split_and!; try done. simpl. etrans; [done|]. by eexists. Qed.

Lemma frame_ok_run w id pe c (w1 : world) pe1 (r : option goerr) :
  run_prog c (inc w id MIn) pe = Ok (w1, pe1, r) → frame_ok w pe w1 pe1.
Proof.
  intros H. apply run_prog_frame in H as (Hl & Hd & Hp & He).
  split_and!; [|done|done|done]. rewrite Hl. simpl. by eexists.
Qed.

Lemma run_list_frame l :
  Forall (λ p, ∀ w pe w' pe' r, pp_process p w pe = Ok (w', pe', r) → frame_ok w pe w' pe') l →
  ∀ w pe err w' pe' r, run_list pp_process l w pe err = Ok (w', pe', r) → frame_ok w pe w' pe'.
Proof.
  induction 1 as [|p l Hp Hl IH]; intros w pe err w' pe' r H; simpl in H.
  - injection H as <- <- <-. apply frame_ok_refl.
  - destruct (pp_process p w pe) as [[[w1 pe1] [e|]]|] eqn:E; [| |done].
    + injection H as <- <- <-. by eapply Hp.
    + eapply frame_ok_trans; [by eapply Hp|by eapply IH].
Qed.

Lemma pp_process_frame p : ∀ w pe w' pe' r,
  pp_process p w pe = Ok (w', pe', r) → frame_ok w pe w' pe'.
Proof.
  induction p as [id cond ignf ignm onf c IH] using pproc_ind'.
  intros w pe w' pe' r H. cbn [pp_process] in H.
  destruct (run_prog c (inc w id MIn) pe) as [[[w1 pe1] [err|]]|] eqn:E; [| |done].
  - apply frame_ok_run in E.
    destruct (pe_dropped pe1); [injection H as <- <- <-; by apply frame_ok_inc|].
    destruct (ignm && is_missing err); [injection H as <- <- <-; by apply frame_ok_inc|].
    destruct (run_list pp_process onf w1 pe1 (Some err)) as [[[w2 pe2] err2]|] eqn:E2; [|done].
    assert (frame_ok w pe w2 pe2).
    { eapply frame_ok_trans; [exact E|]. by eapply run_list_frame. }
    destruct (ignf && _); injection H as <- <- <-; by apply frame_ok_inc.
  - injection H as <- <- <-. apply frame_ok_inc. by eapply frame_ok_run.
Qed.

Lemma run_list_frame' l w pe err w' pe' r :
  run_list pp_process l w pe err = Ok (w', pe', r) → frame_ok w pe w' pe'.
Proof.
  apply run_list_frame, Forall_forall. intros p _. apply pp_process_frame.
Qed.

Lemma pl_process_frame pl w pe w' pe' r :
  pl_process pl w pe = Ok (w', pe', r) → frame_ok w pe w' pe'.
Proof.
  unfold pl_process. intros H.
  destruct (run_list _ _ w pe None) as [[[w1 pe1] [err|]]|] eqn:E; [| |done].
  - eapply frame_ok_trans; by eapply run_list_frame'.
  - injection H as <- <- <-. by eapply run_list_frame'.
Qed.

(** ** Sequencing *)
(** [chain l w pe w' pe']: every processor of [l] succeeded, in order, each
    starting in the state the previous one left. *)
Fixpoint chain (l : list pproc) (w : world) (pe : pevent) (w' : world) (pe' : pevent) : Prop :=
  match l with
  | [] => w' = w ∧ pe' = pe
  | p :: l' => ∃ w1 pe1, pp_process p w pe = Ok (w1, pe1, None) ∧ chain l' w1 pe1 w' pe'
  end.

(** [l] ran until the first failing processor. *)
Definition stopped (l : list pproc) (w : world) (pe : pevent) (w' : world) (pe' : pevent)
    (e : goerr) : Prop :=
  ∃ before p after w1 pe1, l = before ++ p :: after ∧ chain before w pe w1 pe1 ∧
    pp_process p w1 pe1 = Ok (w', pe', Some e).

Lemma run_list_spec l w pe err w' pe' r :
  run_list pp_process l w pe err = Ok (w', pe', r) ↔
  (chain l w pe w' pe' ∧ r = (match l with [] => err | _ => None end)) ∨
  (∃ e, stopped l w pe w' pe' e ∧ r = Some e).
Proof.
  revert w pe err. induction l as [|p l IH]; intros w pe err; simpl.
  - split.
    + intros [= <- <- <-]. by left.
    + intros [[[-> ->] ->]|(e & (before & p & after & w1 & pe1 & Hl & _) & _)]; [done|].
      by destruct before.
  - split.
    + intros H. destruct (pp_process p w pe) as [[[w1 pe1] [e|]]|] eqn:E; [| |done].
      * injection H as <- <- <-. right. exists e. split; [|done].
        exists [], p, l, w, pe. by split_and!.
      * apply IH in H as [[Hc ->]|(e & (before & q & after & w2 & pe2 & -> & Hc & Hq) & ->)].
        -- left. split; [by exists w1, pe1|]. by destruct l.
        -- right. exists e. split; [|done].
           exists (p :: before), q, after, w2, pe2. split_and!; [done| |done].
           by exists w1, pe1.
    + intros [[(w1 & pe1 & E & Hc) ->]|(e & (before & q & after & w2 & pe2 & Hl & Hc & Hq) & ->)].
      * rewrite E. apply IH. left. split; [done|]. by destruct l.
      * destruct before as [|p' before]; simpl in *.
        -- destruct Hc as [-> ->]. injection Hl as -> ->. by rewrite Hq.
        -- injection Hl as -> ->. destruct Hc as (w1 & pe1 & E & Hc). rewrite E.
           apply IH. right. exists e. split; [|done]. by exists before, q, after, w2, pe2.
Qed.

(** ** The complete behaviour of one pipelineProcessor *)
Definition is_Some_b {A} (o : option A) : bool := match o with Some _ => true | None => false end.

Lemma pp_process_spec p w pe w' pe' r :
  pe_dropped pe = false →
  pp_process p w pe = Ok (w', pe', r) ↔
  ∃ w1 pe1 r1, run_prog (p_prog p) (inc w (p_id p) MIn) pe = Ok (w1, pe1, r1) ∧
    match r1 with
    | None => w' = inc w1 (p_id p) MOut ∧ pe' = pe1 ∧ r = None
    | Some err =>
        if p_ignm p && is_missing err then w' = inc w1 (p_id p) MOut ∧ pe' = pe1 ∧ r = None
        else ∃ w2 r2, run_list pp_process (p_onf p) w1 pe1 (Some err) = Ok (w2, pe', r2) ∧
          if p_ignf p && is_Some_b r2 then w' = inc w2 (p_id p) MOut ∧ r = None
          else w' = inc w2 (p_id p) MErrors ∧ r = r2
    end.
Proof.
  destruct p as [id cond ignf ignm onf c]. intros Hd. cbn [pp_process Pipeline.p_id p_prog p_ignm p_onf p_ignf].
  destruct (run_prog c (inc w id MIn) pe) as [[[w1 pe1] [err|]]|] eqn:E; [| |].
  - assert (pe_dropped pe1 = false) as ->.
    { apply run_prog_frame in E as (_ & _ & E & _). congruence. }
    split.
    + intros H. exists w1, pe1, (Some err). split; [done|].
      destruct (ignm && is_missing err); [by injection H as <- <- <-|].
      destruct (run_list _ _ _ _ _) as [[[w2 pe2] r2]|] eqn:E2; [|done].
      exists w2, r2. unfold is_Some_b.
      destruct (ignf && _); injection H as <- <- <-; by split.
    + intros (w1' & pe1' & r1 & H1 & H2). injection H1 as <- <- <-.
      destruct (ignm && is_missing err); [by destruct H2 as (-> & -> & ->)|].
      destruct H2 as (w2 & r2 & -> & H2). unfold is_Some_b in H2.
      by destruct (ignf && _); destruct H2 as [-> ->].
  - split.
    + intros [= <- <- <-]. by exists w1, pe1, None.
    + intros (w1' & pe1' & r1 & H1 & H2). injection H1 as <- <- <-. by destruct H2 as (-> & -> & ->).
  - split; [done|]. by intros (? & ? & ? & ? & _).
Qed.

(** ** Counters *)
Lemma count_app id m l1 l2 : count id m (l1 ++ l2) = count id m l1 + count id m l2.
Proof. unfold count. by rewrite filter_app, app_length. Qed.

Lemma count_nil id m : count id m [] = 0.
Proof. done. Qed.

Lemma count_one id m id' m' :
  count id m [(id', m')] = if decide ((id', m') = (id, m)) then 1 else 0.
Proof. unfold count. rewrite filter_cons. by destruct (decide _). Qed.

Definition balanced (id : string) (l : list (string * metric)) : Prop :=
  count id MIn l = count id MOut l + count id MErrors l + count id MDiscarded l.

Lemma balanced_bracket id id' l m :
  balanced id l → m ≠ MIn → balanced id ((id', MIn) :: l ++ [(id', m)]).
Proof.
  unfold balanced. intros H Hm.
  change ((id', MIn) :: l ++ [(id', m)]) with ([(id', MIn)] ++ l ++ [(id', m)]).
  rewrite !count_app, !count_one. destruct m; [| |done|]; repeat destruct (decide _); simplify_eq; try lia.
  all: exfalso; naive_solver.
Qed.

Lemma balanced_app id l1 l2 : balanced id l1 → balanced id l2 → balanced id (l1 ++ l2).
Proof. unfold balanced. rewrite !count_app. lia. Qed.

(** New log entries of a run. *)
Definition new_log (w w' : world) (l : list (string * metric)) : Prop := w_log w' = w_log w ++ l.

(** The shape of the log a processor writes: its own In, its handlers' entries,
    its own closing entry. *)
Lemma pp_process_log p w pe w' pe' r :
  pe_dropped pe = false → pp_process p w pe = Ok (w', pe', r) →
  ∃ w1 pe1 w2 err m r2,
    frame_ok (inc w (p_id p) MIn) pe w1 pe1 ∧ w_log w1 = w_log w ++ [(p_id p, MIn)] ∧
    (w2 = w1 ∨ run_list pp_process (p_onf p) w1 pe1 (Some err) = Ok (w2, pe', r2)) ∧
    w' = inc w2 (p_id p) m ∧ (m = MOut ∨ m = MErrors).
Proof.
  intros Hd H. apply (proj1 (pp_process_spec _ _ _ _ _ _ Hd)) in H as (w1 & pe1 & r1 & H1 & H2).
  pose proof (run_prog_frame _ _ _ _ _ _ H1) as (Hl & Hda & Hdr & He). simpl in Hl.
  assert (frame_ok (inc w (p_id p) MIn) pe w1 pe1) as Hf.
  { split_and!; try done. simpl. by rewrite Hl. }
  destruct r1 as [err|].
  - destruct (p_ignm p && is_missing err).
    { destruct H2 as (-> & -> & ->). exists w1, pe1, w1, err, MOut, None. split_and!; try done; by left. }
    destruct H2 as (w2 & r2 & H2 & H3). destruct (p_ignf p && is_Some_b r2); destruct H3 as [-> ->].
    + exists w1, pe1, w2, err, MOut, r2. split_and!; try done; [by right|by left].
    + exists w1, pe1, w2, err, MErrors, r2. split_and!; try done; by right.
  - destruct H2 as (-> & -> & ->). exists w1, pe1, w1, (EMsg ""), MOut, None. split_and!; try done; by left.
Qed.

Lemma run_list_dropped l w pe err w' pe' r :
  run_list pp_process l w pe err = Ok (w', pe', r) → pe_dropped pe' = pe_dropped pe.
Proof. intros H. by apply run_list_frame' in H as (_ & _ & ? & _). Qed.

(** A property of the new log entries that is closed under sequencing and under
    bracketing holds of every run. *)
Section log_ind.
  Context (Q : list pproc → list (string * metric) → Prop).
  (* Q ps l: l may be written by running [ps] *)
  Context (Qnil : ∀ ps, Q ps []).
  Context (Qapp : ∀ p ps l1 l2, Q [p] l1 → Q ps l2 → Q (p :: ps) (l1 ++ l2)).
  Context (Qhead : ∀ p ps l1, Q [p] l1 → Q (p :: ps) l1).
  Context (Qproc : ∀ p l m, Q (p_onf p) l → m = MOut ∨ m = MErrors →
             Q [p] ((p_id p, MIn) :: l ++ [(p_id p, m)])).

  Lemma run_list_log_ind l :
    Forall (λ p, ∀ w pe w' pe' r, pe_dropped pe = false → pp_process p w pe = Ok (w', pe', r) →
                   ∃ lg, new_log w w' lg ∧ Q [p] lg) l →
    ∀ w pe err w' pe' r, pe_dropped pe = false → run_list pp_process l w pe err = Ok (w', pe', r) →
      ∃ lg, new_log w w' lg ∧ Q l lg.
  Proof.
    unfold new_log. induction 1 as [|p l Hp Hl IH]; intros w pe err w' pe' r Hd H; simpl in H.
    - injection H as <- <- <-. exists []. by rewrite app_nil_r.
    - destruct (pp_process p w pe) as [[[w1 pe1] [e|]]|] eqn:E; [| |done].
      + injection H as <- <- <-. destruct (Hp _ _ _ _ _ Hd E) as (lg & Hlg & HQ).
        exists lg. split; [done|]. by apply Qhead.
      + pose proof E as E'. apply pp_process_frame in E' as (_ & _ & Hd1 & _).
        destruct (Hp _ _ _ _ _ Hd E) as (lg & Hlg & HQ).
        destruct (IH _ _ _ _ _ _ (eq_trans Hd1 Hd) H) as (lg2 & Hlg2 & HQ2).
        exists (lg ++ lg2). split; [|by apply Qapp]. by rewrite Hlg2, Hlg, app_assoc.
  Qed.

  Lemma pp_process_log_ind p : ∀ w pe w' pe' r,
    pe_dropped pe = false → pp_process p w pe = Ok (w', pe', r) →
    ∃ lg, new_log w w' lg ∧ Q [p] lg.
  Proof.
    induction p as [id cond ignf ignm onf c IH] using pproc_ind'. intros w pe w' pe' r Hd H.
    destruct (pp_process_log _ _ _ _ _ _ Hd H) as (w1 & pe1 & w2 & err & m & r2 & Hf & Hl1 & Hh & -> & Hm).
    simpl in *. unfold new_log. simpl.
    destruct Hh as [->|Hh].
    - exists ((id, MIn) :: [] ++ [(id, m)]). split; [by rewrite Hl1, <-app_assoc|].
      by apply (Qproc (PProc id cond ignf ignm onf c)).
    - destruct Hf as (_ & _ & Hd1 & _).
      destruct (run_list_log_ind onf IH _ _ _ _ _ _ (eq_trans Hd1 Hd) Hh) as (lg & Hlg & HQ).
      unfold new_log in Hlg.
      exists ((id, MIn) :: lg ++ [(id, m)]). split.
      + rewrite Hlg, Hl1. by rewrite <-!app_assoc.
      + by apply (Qproc (PProc id cond ignf ignm onf c)).
  Qed.

  Lemma run_list_log_ind' l w pe err w' pe' r :
    pe_dropped pe = false → run_list pp_process l w pe err = Ok (w', pe', r) →
    ∃ lg, new_log w w' lg ∧ Q l lg.
  Proof.
    apply run_list_log_ind, Forall_forall. intros p _. apply pp_process_log_ind.
  Qed.
End log_ind.

Lemma pl_process_log (Q : list pproc → list (string * metric) → Prop) pl w pe w' pe' r :
  (∀ ps, Q ps []) →
  (∀ p ps l1 l2, Q [p] l1 → Q ps l2 → Q (p :: ps) (l1 ++ l2)) →
  (∀ p ps l1, Q [p] l1 → Q (p :: ps) l1) →
  (∀ p l m, Q (p_onf p) l → m = MOut ∨ m = MErrors → Q [p] ((p_id p, MIn) :: l ++ [(p_id p, m)])) →
  pe_dropped pe = false → pl_process pl w pe = Ok (w', pe', r) →
  ∃ l1 l2, new_log w w' (l1 ++ l2) ∧ Q (pl_processors pl) l1 ∧ Q (pl_onf pl) l2.
Proof.
  intros Q1 Q2 Q3 Q4 Hd H. unfold pl_process in H. unfold new_log.
  destruct (run_list _ _ w pe None) as [[[w1 pe1] [e|]]|] eqn:E; [| |done].
  - destruct (run_list_log_ind' Q Q1 Q2 Q3 Q4 _ _ _ _ _ _ _ Hd E) as (l1 & Hl1 & HQ1).
    apply run_list_dropped in E. rewrite Hd in E.
    destruct (run_list_log_ind' Q Q1 Q2 Q3 Q4 _ _ _ _ _ _ _ E H) as (l2 & Hl2 & HQ2).
    exists l1, l2. unfold new_log in *. split_and!; try done. by rewrite Hl2, Hl1, app_assoc.
  - injection H as <- <- <-.
    destruct (run_list_log_ind' Q Q1 Q2 Q3 Q4 _ _ _ _ _ _ _ Hd E) as (l1 & Hl1 & HQ1).
    exists l1, []. rewrite app_nil_r. by split_and!.
Qed.

Lemma Process_pl pl w evt w' r err :
  Process pl w evt = Ok (w', r, err) →
  ∃ pe', pl_process pl w (mkPEvent evt false false) = Ok (w', pe', err) ∧
    r = match err with None => evt | Some _ => None end.
Proof.
  unfold Process. intros H.
  destruct (pl_process pl w (mkPEvent evt false false)) as [[[w1 pe1] [e|]]|] eqn:E; [| |done].
  - injection H as <- <- <-. by exists pe1.
  - pose proof E as E'. apply pl_process_frame in E' as (_ & Hda & Hdr & _). simpl in *.
    rewrite Hdr in H. injection H as <- <- <-. exists pe1. by rewrite Hda.
Qed.

(** ** Balance *)
Lemma Process_balanced pl w evt w' r err id :
  Process pl w evt = Ok (w', r, err) → ∃ lg, new_log w w' lg ∧ balanced id lg.
Proof.
  intros H. apply Process_pl in H as (pe' & H & _).
  destruct (pl_process_log (λ _ lg, balanced id lg) pl w (mkPEvent evt false false) w' pe' err)
    as (l1 & l2 & Hl & H1 & H2); try done.
  - intros. by apply balanced_app.
  - intros p l m Hl Hm. apply balanced_bracket; [done|]. destruct Hm; by subst.
  - exists (l1 ++ l2). split; [done|]. by apply balanced_app.
Qed.

(** ** Which processors run, in what order *)
(** The ids of the processors started, in order. *)
Definition runs (l : list (string * metric)) : list string :=
  map fst (filter (λ x, x.2 = MIn) l).

Lemma runs_app l1 l2 : runs (l1 ++ l2) = runs l1 ++ runs l2.
Proof. unfold runs. by rewrite filter_app, map_app. Qed.

Lemma runs_bracket id l m : m ≠ MIn → runs ((id, MIn) :: l ++ [(id, m)]) = id :: runs l.
Proof.
  intros Hm. change ((id, MIn) :: l ++ [(id, m)]) with ([(id, MIn)] ++ l ++ [(id, m)]).
  rewrite !runs_app. unfold runs at 3. rewrite filter_cons_False by done. simpl.
  by rewrite app_nil_r.
Qed.

Lemma Process_runs pl w evt w' r err :
  Process pl w evt = Ok (w', r, err) →
  ∃ lg, new_log w w' lg ∧ runs lg `sublist_of` map p_id (pl_all pl).
Proof.
  intros H. apply Process_pl in H as (pe' & H & _).
  destruct (pl_process_log (λ ps lg, runs lg `sublist_of` map p_id (pps_all ps)) pl w
              (mkPEvent evt false false) w' pe' err) as (l1 & l2 & Hl & H1 & H2); try done.
  - intros ps. apply sublist_nil_l.
  - intros p ps l1 l2 H1 H2. rewrite pps_all_one in H1.
    rewrite runs_app, pps_all_cons, map_app. by apply sublist_app.
  - intros p ps l1 H1. rewrite pps_all_one in H1. rewrite pps_all_cons, map_app. by apply sublist_inserts_r.
  - intros p l m Hl Hm. rewrite runs_bracket by (destruct Hm; by subst).
    rewrite pps_all_one. destruct p as [id cond ignf ignm onf c].
    rewrite pp_all_eq. simpl in *. by apply sublist_skip.
  - exists (l1 ++ l2). split; [done|]. unfold pl_all. rewrite runs_app, map_app. by apply sublist_app.
Qed.

(** Later processors do not run after a failure. *)
Lemma pps_log_ids ps w pe err w' pe' r :
  pe_dropped pe = false → run_list pp_process ps w pe err = Ok (w', pe', r) →
  ∃ lg, new_log w w' lg ∧ ∀ id m, (id, m) ∈ lg → id ∈ map p_id (pps_all ps).
Proof.
  intros Hd H.
  revert H. generalize r pe' w' err. clear r pe' w' err. intros r pe' w' err H.
  apply (run_list_log_ind' (λ ps lg, ∀ id m, (id, m) ∈ lg → id ∈ map p_id (pps_all ps))) in H;
    [done| | | | |done].
  - intros qs id m Hin. by apply elem_of_nil in Hin.
  - intros p qs l1 l2 H1 H2 id m. rewrite elem_of_app, pps_all_cons, map_app, elem_of_app.
    setoid_rewrite pps_all_one in H1. naive_solver.
  - intros p qs l1 H1 id m Hm. rewrite pps_all_cons, map_app, elem_of_app.
    setoid_rewrite pps_all_one in H1. naive_solver.
  - intros p l m Hl Hm id m' Hin. rewrite pps_all_one.
    destruct p as [i cond ignf ignm onf c]. rewrite pp_all_eq. simpl in *.
    rewrite elem_of_cons, elem_of_app, elem_of_list_singleton in Hin.
    rewrite elem_of_cons. naive_solver.
Qed.
