(** * Panics: what is left when a processor panics and the caller recovers.

    [run_prog] and [Process] say [Panic] and forget the state.  Nothing in /repo
    recovers; a caller that does (an HTTP handler, say) goes on with the world as it
    was when the panic started.  Here the panicking run returns that world.  The
    methods of event.go change nothing before they panic (event.go:60-138: the only
    writes are at the end of put and delete, and below maps put itself has just made; proved for put at the end of this file), so the world of a
    panicking operation is the one before it. *)
From Verif Require Export PipelineRun.

(** ** The model *)
Inductive fate (A : Type) : Type :=
| Done (w : world) (pe : pevent) (a : A)
| Unwound (w : world).
Arguments Done {A}. Arguments Unwound {A}.

(** Running a program (Processors.v, [run_prog]). *)
Fixpoint run_fate {A} (c : prog A) (w : world) (pe : pevent) : fate A :=
  match c with
  | Ret a => Done w pe a
  | PPut key v k =>
      match evt_of w pe with
      | None => Unwound w
      | Some (i, e) =>
          match Put (w_heap w) e key v with
          | Panic => Unwound w
          | Ok r => run_fate (k (put_old r) (put_err r))
                      (mkWorld (put_heap r) (<[i := put_event r]> (w_events w)) (w_env w) (w_log w)) pe
          end
      end
  | PTryPut key v k =>
      match evt_of w pe with
      | None => Unwound w
      | Some (i, e) =>
          match TryPut (w_heap w) e key v with
          | Panic => Unwound w
          | Ok r => run_fate (k (put_old r) (put_err r))
                      (mkWorld (put_heap r) (<[i := put_event r]> (w_events w)) (w_env w) (w_log w)) pe
          end
      end
  | PGet key k =>
      match evt_of w pe with
      | None => Unwound w
      | Some (i, e) =>
          match Get (w_heap w) e key with
          | Panic => Unwound w
          | Ok (h, v) => run_fate (k v) (set_heap w h) pe
          end
      end
  | PDelete key k =>
      match evt_of w pe with
      | None => Unwound w
      | Some (i, e) =>
          match EvDelete (w_heap w) e key with
          | Panic => Unwound w
          | Ok (h, v) => run_fate (k v) (set_heap w h) pe
          end
      end
  | PCancel k => run_fate k w (pe_Cancel pe)
  | PDrop k => run_fate k w (pe_Drop pe)
  | PNew v k => let '(h, p) := alloc_val (w_heap w) v in run_fate (k p) (set_heap w h) pe
  | PNewMap k => let '(h, r) := alloc_map (w_heap w) in run_fate (k r) (set_heap w h) pe
  | PLoad p k =>
      match deref (w_heap w) p with Panic => Unwound w | Ok v => run_fate (k v) w pe end
  | PStore p v k =>
      match p with
      | Some q => if decide (q < length (hvals (w_heap w)))
                  then run_fate k (set_heap w (set_val (w_heap w) q v)) pe else Unwound w
      | None => Unwound w
      end
  | PMapRead r k => run_fate (k (map_of (w_heap w) r)) w pe
  | PMapWrite r key v k =>
      match map_write (w_heap w) r key v with
      | Panic => Unwound w
      | Ok h => run_fate k (set_heap w h) pe
      end
  | PMapDelete r key k => run_fate k (set_heap w (map_delete (w_heap w) r key)) pe
  | PInput k =>
      match w_env w with
      | [] => run_fate (k 0) w pe
      | x :: env => run_fate (k x) (mkWorld (w_heap w) (w_events w) env (w_log w)) pe
      end
  | PPanic => Unwound w
  end.

(** processor.go:66-70, pipeline.go:83-88, 91-96. *)
Section floop.
  Context (process : pproc → world → pevent → fate (option goerr)).
  Fixpoint fate_list (l : list pproc) (w : world) (pe : pevent) (err : option goerr) : fate (option goerr) :=
    match l with
    | [] => Done w pe err
    | p :: l' =>
        match process p w pe with
        | Unwound w' => Unwound w'
        | Done w' pe' None => fate_list l' w' pe' None
        | Done w' pe' (Some e) => Done w' pe' (Some e)
        end
    end.
End floop.
(** processor.go:48-86: the counters are incremented by plain statements, none deferred. *)
Fixpoint pp_fate (p : pproc) (w : world) (pe : pevent) {struct p} : fate (option goerr) :=
  match p with
  | PProc id _ ignf ignm onf c =>
      match run_fate c (inc w id MIn) pe with
      | Unwound w1 => Unwound w1
      | Done w1 pe1 None => Done (inc w1 id MOut) pe1 None
      | Done w1 pe1 (Some err) =>
          if pe_dropped pe1 then Done (inc w1 id MDiscarded) pe1 None
          else if ignm && is_missing err then Done (inc w1 id MOut) pe1 None
          else
            match fate_list pp_fate onf w1 pe1 (Some err) with
            | Unwound w2 => Unwound w2
            | Done w2 pe2 err2 =>
                if ignf && (match err2 with Some _ => true | None => false end)
                then Done (inc w2 id MOut) pe2 None
                else Done (inc w2 id MErrors) pe2 err2
            end
      end
  end.
(** pipeline.go:81-104, 63-75: the returned event and error, or the world at the panic. *)
Definition Process_fate (pl : pipeline) (w : world) (evt : option nat) : fate (option nat * option goerr) :=
  let finish (r : fate (option goerr)) :=
    match r with
    | Unwound w1 => Unwound w1
    | Done w1 pe1 (Some err) => Done w1 pe1 (None, Some err)
    | Done w1 pe1 None => Done w1 pe1 (if pe_dropped pe1 then None else pe_data pe1, None)
    end in
  match fate_list pp_fate (pl_processors pl) w (mkPEvent evt false false) None with
  | Done w1 pe1 (Some err) => finish (fate_list pp_fate (pl_onf pl) w1 pe1 (Some err))
  | r => finish r
  end.

(** ** Specification *)
(** A path into the configuration: a processor of [l], a handler of it, and so on. *)
Inductive nested : list pproc → list pproc → Prop :=
| nested_one l p : p ∈ l → nested l [p]
| nested_more l p ps : p ∈ l → nested (p_onf p) ps → nested l (p :: ps).
(** How often a component is on the path. *)
Definition on_path (id : string) (ps : list pproc) : nat := length (filter (λ p, p_id p = id) ps).
(** How many more events went into [id] than out of it, according to [lg]. *)
Definition missing_by (id : string) (n : nat) (lg : list (string * metric)) : Prop :=
  count id MIn lg = count id MOut lg + count id MErrors lg + count id MDiscarded lg + n.

(** Calls of any of [pls], panics recovered; the number counts the panics. *)
Inductive recovered (pls : list pipeline) (w0 : world) : nat → world → Prop :=
| rec_nil : recovered pls w0 0 w0
| rec_done n w pl evt w' pe r : recovered pls w0 n w → pl ∈ pls →
    Process_fate pl w evt = Done w' pe r → recovered pls w0 n w'
| rec_panic n w pl evt w' : recovered pls w0 n w → pl ∈ pls →
    Process_fate pl w evt = Unwound w' → recovered pls w0 (S n) w'
| rec_other n w w' : recovered pls w0 n w → w_log w' = w_log w → recovered pls w0 n w'.

(** ** Proofs *)
Definition forget {A} (f : fate A) : Outcome (world * pevent * A) :=
  match f with Done w pe a => Ok (w, pe, a) | Unwound _ => Panic end.

Lemma run_fate_forget {A} (c : prog A) : ∀ w pe, forget (run_fate c w pe) = run_prog c w pe.
Proof.
  induction c as [a|key v k IH|key v k IH|key k IH|key k IH|k IH|k IH|v k IH|k IH|p k IH|p v k IH
                 |r k IH|r key v k IH|r key k IH|k IH|]; intros w pe; cbn [run_fate run_prog]; try done.
  all: repeat match goal with
    | |- context [match evt_of ?w ?pe with _ => _ end] => destruct (evt_of w pe) as [[??]|]; [|done]
    | |- context [match Put ?h ?e ?k ?v with _ => _ end] => destruct (Put h e k v) as [?|]; [|done]
    | |- context [match TryPut ?h ?e ?k ?v with _ => _ end] => destruct (TryPut h e k v) as [?|]; [|done]
    | |- context [match Get ?h ?e ?k with _ => _ end] => destruct (Get h e k) as [[??]|]; [|done]
    | |- context [match EvDelete ?h ?e ?k with _ => _ end] => destruct (EvDelete h e k) as [[??]|]; [|done]
    | |- context [match map_write ?h ?r ?k ?v with _ => _ end] => destruct (map_write h r k v) as [?|]; [|done]
    | |- context [match deref ?h ?r with _ => _ end] => destruct (deref h r) as [?|]; [|done]
    | |- context [match w_env ?w with _ => _ end] => destruct (w_env w)
    end; try (by apply IH).
  destruct p; [|done]. destruct (decide _); [|done]. apply IH.
Qed.

Lemma pproc_ind_f (P : pproc → Prop) :
  (∀ id cond ignf ignm onf c, Forall P onf → P (PProc id cond ignf ignm onf c)) → ∀ p, P p.
Proof.
  intros H. fix IH 1. intros [id cond ignf ignm onf c]. apply H.
  induction onf; [apply List.Forall_nil|apply List.Forall_cons; [apply IH|done]].
Qed.

Lemma fate_list_forget l : Forall (λ p, ∀ w pe, forget (pp_fate p w pe) = pp_process p w pe) l →
  ∀ w pe err, forget (fate_list pp_fate l w pe err) = run_list pp_process l w pe err.
Proof.
  induction 1 as [|p l Hp _ IH]; intros w pe err; [done|]. cbn [fate_list run_list]. rewrite <-Hp.
  destruct (pp_fate p w pe) as [w' pe' [e|]|w']; [done| |done]. apply IH.
Qed.
Lemma pp_fate_forget p : ∀ w pe, forget (pp_fate p w pe) = pp_process p w pe.
Proof.
  induction p as [id cond ignf ignm onf c IH] using pproc_ind_f. intros w pe. cbn [pp_fate pp_process].
  rewrite <-run_fate_forget. destruct (run_fate c (inc w id MIn) pe) as [w1 pe1 [e|]|w1]; [|done|done].
  cbn [forget]. destruct (pe_dropped pe1); [done|]. destruct (ignm && is_missing e); [done|].
  rewrite <-(fate_list_forget onf IH). destruct (fate_list pp_fate onf w1 pe1 (Some e)) as [w2 pe2 err2|w2]; [|done].
  cbn [forget]. by destruct (ignf && _).
Qed.
Lemma fate_list_forget' l w pe err : forget (fate_list pp_fate l w pe err) = run_list pp_process l w pe err.
Proof. apply fate_list_forget, Forall_true. intros p. apply pp_fate_forget. Qed.

Lemma Process_fate_forget pl w evt :
  Process pl w evt = match Process_fate pl w evt with
                     | Done w' _ (r, err) => Ok (w', r, err)
                     | Unwound _ => Panic
                     end.
Proof.
  unfold Process, pl_process, Process_fate. rewrite <-fate_list_forget'.
  destruct (fate_list pp_fate (pl_processors pl) w _ None) as [w1 pe1 [e|]|w1]; cbn [forget]; [| |done].
  - rewrite <-fate_list_forget'. destruct (fate_list pp_fate (pl_onf pl) w1 pe1 (Some e)) as [w2 pe2 [e2|]|w2]; cbn [forget]; [done| |done].
    by destruct (pe_dropped pe2).
  - by destruct (pe_dropped pe1).
Qed.

Lemma run_fate_log {A} (c : prog A) : ∀ w pe w', run_fate c w pe = Unwound w' → w_log w' = w_log w.
Proof.
  induction c as [a|key v k IH|key v k IH|key k IH|key k IH|k IH|k IH|v k IH|k IH|p k IH|p v k IH
                 |r k IH|r key v k IH|r key k IH|k IH|]; intros w pe w'; cbn [run_fate].
  - done.
  - destruct (evt_of w pe) as [[i e]|]; [|by intros [= <-]]. destruct (Put _ _ _ _); [|by intros [= <-]]. intros H. by apply IH in H.
  - destruct (evt_of w pe) as [[i e]|]; [|by intros [= <-]]. destruct (TryPut _ _ _ _); [|by intros [= <-]]. intros H. by apply IH in H.
  - destruct (evt_of w pe) as [[i e]|]; [|by intros [= <-]]. destruct (Get _ _ _) as [[??]|]; [|by intros [= <-]]. intros H. by apply IH in H.
  - destruct (evt_of w pe) as [[i e]|]; [|by intros [= <-]]. destruct (EvDelete _ _ _) as [[??]|]; [|by intros [= <-]]. intros H. by apply IH in H.
  - apply IH.
  - apply IH.
  - intros H. by apply IH in H.
  - intros H. by apply IH in H.
  - destruct (deref _ _); [|by intros [= <-]]. apply IH.
  - destruct p; [|by intros [= <-]]. destruct (decide _); [|by intros [= <-]]. intros H. by apply IH in H.
  - apply IH.
  - destruct (map_write _ _ _ _); [|by intros [= <-]]. intros H. by apply IH in H.
  - intros H. by apply IH in H.
  - destruct (w_env w); intros H; by apply IH in H.
  - by intros [= <-].
Qed.

Lemma missing_app id n l1 l2 : balanced id l1 → missing_by id n l2 → missing_by id n (l1 ++ l2).
Proof. unfold balanced, missing_by. rewrite !count_app. lia. Qed.

(** The deepest processor on the path panicked, in the world that is left. *)
Definition panicked_at (d : option nat) (ps : list pproc) (w' : world) : Prop :=
  ∃ p w1 pe1, last ps = Some p ∧ pe_data pe1 = d ∧ run_fate (p_prog p) (inc w1 (p_id p) MIn) pe1 = Unwound w'.

Lemma list_balanced l w pe err w' pe' r id :
  pe_dropped pe = false → run_list pp_process l w pe err = Ok (w', pe', r) → ∃ lg, new_log w w' lg ∧ balanced id lg.
Proof.
  intros Hd H. apply (run_list_log_ind' (λ _ lg, balanced id lg)) in H; [done|done| | | |done].
  - intros. by apply balanced_app.
  - done.
  - intros p l' m Hl Hm. apply balanced_bracket; [done|]. destruct Hm; by subst.
Qed.

Lemma nested_weaken l l' ps : (∀ p, p ∈ l → p ∈ l') → nested l ps → nested l' ps.
Proof. intros H. destruct 1; [apply nested_one|apply nested_more]; auto. Qed.

Definition leaves_path (d : option nat) (l : list pproc) (w w' : world) : Prop :=
  ∃ ps lg, nested l ps ∧ panicked_at d ps w' ∧ new_log w w' lg ∧ ∀ id, missing_by id (on_path id ps) lg.

Lemma fate_list_unwound l : Forall (λ p, ∀ w pe w', pe_dropped pe = false → pp_fate p w pe = Unwound w' → leaves_path (pe_data pe) [p] w w') l →
  ∀ w pe err w', pe_dropped pe = false → fate_list pp_fate l w pe err = Unwound w' → leaves_path (pe_data pe) l w w'.
Proof.
  induction 1 as [|p l Hp _ IH]; intros w pe err w' Hd E; [done|]. cbn [fate_list] in E.
  destruct (pp_fate p w pe) as [w1 pe1 [e|]|w1] eqn:Ep; [done| |].
  - assert (pp_process p w pe = Ok (w1, pe1, None)) as Ep' by (rewrite <-pp_fate_forget, Ep; done).
    assert (run_list pp_process [p] w pe None = Ok (w1, pe1, None)) as El by (cbn [run_list]; by rewrite Ep').
    assert (pe_dropped pe1 = false) as Hd1. { apply run_list_dropped in El. congruence. }
    assert (pe_data pe1 = pe_data pe) as Hda by (by apply pp_process_frame in Ep' as (_ & ? & _)).
    rewrite <-Hda. destruct (IH w1 pe1 None w' Hd1 E) as (ps & lg & H1 & H2 & H3 & H4).
    destruct (list_balanced [p] w pe None w1 pe1 None "" Hd El) as (lg1 & Hl1 & _).
    exists ps, (lg1 ++ lg). split; [|split; [done|split]].
    + apply (nested_weaken l); [|done]. intros q Hq. by apply elem_of_cons; right.
    + unfold new_log in *. by rewrite H3, Hl1, app_assoc.
    + intros id. apply missing_app; [|done].
      destruct (list_balanced [p] w pe None w1 pe1 None id Hd El) as (lg2 & Hl2 & Hb).
      unfold new_log in *. rewrite Hl1 in Hl2. apply app_inv_head in Hl2. by subst.
  - injection E as <-. destruct (Hp w pe w1 Hd Ep) as (ps & lg & H1 & H2 & H3 & H4).
    exists ps, lg. split; [|done]. apply (nested_weaken [p]); [|done]. intros q Hq.
    apply elem_of_list_singleton in Hq. subst. by apply elem_of_cons; left.
Qed.

Lemma on_path_cons id p ps : on_path id (p :: ps) = (if decide (p_id p = id) then 1 else 0) + on_path id ps.
Proof. unfold on_path. rewrite filter_cons. by destruct (decide _). Qed.

Lemma pp_fate_unwound p : ∀ w pe w', pe_dropped pe = false → pp_fate p w pe = Unwound w' → leaves_path (pe_data pe) [p] w w'.
Proof.
  induction p as [id cond ignf ignm onf c IH] using pproc_ind_f. intros w pe w' Hd E. cbn [pp_fate] in E.
  destruct (run_fate c (inc w id MIn) pe) as [w1 pe1 [e|]|w1] eqn:Ec; [|done|].
  - assert (run_prog c (inc w id MIn) pe = Ok (w1, pe1, Some e)) as Er by (rewrite <-run_fate_forget, Ec; done).
    apply run_prog_frame in Er as (Hl & Hda & Hp & _). rewrite Hd in Hp. rewrite Hp in E.
    destruct (ignm && is_missing e); [done|].
    destruct (fate_list pp_fate onf w1 pe1 (Some e)) as [w2 pe2 err2|w2] eqn:El; [by destruct (ignf && _)|].
    injection E as <-.
    destruct (fate_list_unwound onf IH w1 pe1 (Some e) w2 Hp El) as (ps & lg & H1 & H2 & H3 & H4). rewrite Hda in H2.
    exists (PProc id cond ignf ignm onf c :: ps), ((id, MIn) :: lg). split_and!.
    + apply nested_more; [by apply elem_of_list_singleton|done].
    + destruct H2 as (q & wq & peq & Hq & Hqd & Hr). exists q, wq, peq. split; [|done]. destruct ps; [done|]. exact Hq.
    + unfold new_log in *. rewrite H3, Hl. simpl. by rewrite <-app_assoc.
    + intros id'. specialize (H4 id'). unfold missing_by in *. rewrite on_path_cons. cbn [p_id].
      change ((id, MIn) :: lg) with ([(id, MIn)] ++ lg). rewrite !count_app, !count_one.
      repeat destruct (decide _); simplify_eq; lia.
  - injection E as <-. pose proof (run_fate_log _ _ _ _ Ec) as Hl.
    exists [PProc id cond ignf ignm onf c], [(id, MIn)]. split_and!.
    + apply nested_one. by apply elem_of_list_singleton.
    + eexists _, w, pe. split; [done|]. split; [done|]. exact Ec.
    + unfold new_log. rewrite Hl. done.
    + intros id'. unfold missing_by. rewrite on_path_cons, !count_one. cbn [p_id].
      unfold on_path. simpl. repeat destruct (decide _); simplify_eq; lia.
Qed.

Lemma Process_unwound pl w evt w' : Process_fate pl w evt = Unwound w' →
  ∃ ps lg, (nested (pl_processors pl) ps ∨ nested (pl_onf pl) ps) ∧ panicked_at evt ps w' ∧ new_log w w' lg ∧
    ∀ id, missing_by id (on_path id ps) lg.
Proof.
  unfold Process_fate. intros E.
  assert (∀ l, Forall (λ p, ∀ w pe w', pe_dropped pe = false → pp_fate p w pe = Unwound w' → leaves_path (pe_data pe) [p] w w') l) as Hall.
  { intros l. apply Forall_true. intros p. apply pp_fate_unwound. }
  destruct (fate_list pp_fate (pl_processors pl) w (mkPEvent evt false false) None) as [w1 pe1 [e|]|w1] eqn:E1; [|done|].
  - destruct (fate_list pp_fate (pl_onf pl) w1 pe1 (Some e)) as [w2 pe2 [e2|]|w2] eqn:E2; [done|done|]. injection E as <-.
    assert (run_list pp_process (pl_processors pl) w (mkPEvent evt false false) None = Ok (w1, pe1, Some e)) as El
      by (by rewrite <-fate_list_forget', E1).
    assert (pe_dropped pe1 = false) as Hd1 by (by apply run_list_dropped in El).
    assert (pe_data pe1 = evt) as Hda1.
    { assert (pl_process (mkPipeline "" (pl_processors pl) []) w (mkPEvent evt false false) = Ok (w1, pe1, Some e)) as Ef.
      { unfold pl_process. cbn [pl_processors pl_onf]. rewrite El. done. }
      by apply pl_process_frame in Ef as (_ & ? & _). }
    destruct (fate_list_unwound _ (Hall _) _ _ _ _ Hd1 E2) as (ps & lg & H1 & H2 & H3 & H4). rewrite Hda1 in H2.
    destruct (list_balanced _ w (mkPEvent evt false false) None w1 pe1 (Some e) "" eq_refl El) as (lg1 & Hl1 & _).
    exists ps, (lg1 ++ lg). split; [by right|]. split; [done|]. split.
    + unfold new_log in *. by rewrite H3, Hl1, app_assoc.
    + intros id. apply missing_app; [|done].
      destruct (list_balanced _ w (mkPEvent evt false false) None w1 pe1 (Some e) id eq_refl El) as (lg2 & Hl2 & Hb).
      unfold new_log in *. rewrite Hl1 in Hl2. apply app_inv_head in Hl2. by subst.
  - injection E as <-. destruct (fate_list_unwound _ (Hall _) w (mkPEvent evt false false) None w1 eq_refl E1) as (ps & lg & H1 & H2 & H3 & H4).
    exists ps, lg. auto.
Qed.

Lemma nested_sublist l ps : nested l ps → map p_id ps `sublist_of` map p_id (pps_all l).
Proof.
  assert (∀ p l, p ∈ l → ∃ a b, pps_all l = a ++ p :: pps_all (p_onf p) ++ b) as Hin.
  { intros p l' Hp. apply elem_of_list_split in Hp as (l1 & l2 & ->). exists (pps_all l1), (pps_all l2).
    rewrite pps_all_app, pps_all_cons. f_equal. destruct p as [id cond ignf ignm onf c]. by rewrite pp_all_eq. }
  induction 1 as [l p Hp|l p ps Hp _ IH]; destruct (Hin p l Hp) as (a & b & ->); rewrite map_app; apply sublist_inserts_l;
    cbn [map]; apply sublist_skip.
  - apply sublist_nil_l.
  - rewrite map_app. by apply sublist_inserts_r.
Qed.
Lemma on_path_once id ps : NoDup (map p_id ps) → on_path id ps ≤ 1.
Proof.
  induction ps as [|p ps IH]; [unfold on_path; simpl; lia|]. cbn [map]. rewrite NoDup_cons. intros [Hn Hd].
  rewrite on_path_cons. destruct (decide (p_id p = id)) as [<-|]; [|by apply IH].
  assert (on_path (p_id p) ps = 0) as ->; [|lia]. unfold on_path.
  assert (filter (λ q, p_id q = p_id p) ps = []) as ->; [|done].
  destruct (filter _ ps) as [|q l] eqn:E; [done|]. exfalso. apply Hn.
  assert (q ∈ filter (λ q, p_id q = p_id p) ps) as Hq by (rewrite E; by apply elem_of_cons; left).
  apply elem_of_list_filter in Hq as [Hq1 Hq2]. rewrite <-Hq1. by apply (elem_of_list_fmap_1 p_id).
Qed.

Lemma recovered_missing pls w0 n w id : (∀ pl, pl ∈ pls → NoDup (map p_id (pl_all pl))) →
  w_log w0 = [] → recovered pls w0 n w → ∃ k, k ≤ n ∧ missing_by id k (w_log w).
Proof.
  intros Hnd H0 H. induction H as [|n w pl evt w' pe [r err] _ IH Hpl E|n w pl evt w' _ IH Hpl E|n w w' _ IH Hl].
  - exists 0. rewrite H0. done.
  - destruct IH as (k & Hk & Hm). exists k. split; [done|].
    assert (Process pl w evt = Ok (w', r, err)) as EP by (by rewrite Process_fate_forget, E).
    destruct (Process_balanced _ _ _ _ _ _ id EP) as (lg & -> & Hb).
    unfold missing_by, balanced in *. rewrite !count_app. lia.
  - destruct IH as (k & Hk & Hm). destruct (Process_unwound pl w evt w' E) as (ps & lg & Hn & _ & -> & Hb).
    exists (k + on_path id ps). specialize (Hb id). split.
    + assert (NoDup (map p_id ps)) as Hd.
      { eapply sublist_nodup; [|apply (Hnd pl Hpl)]. unfold pl_all. rewrite map_app.
        destruct Hn as [Hn|Hn]; apply nested_sublist in Hn; [by apply sublist_inserts_r|by apply sublist_inserts_l]. }
      pose proof (on_path_once id ps Hd). lia.
    + unfold missing_by in *. rewrite !count_app. lia.
  - destruct IH as (k & Hk & Hm). exists k. by rewrite Hl.
Qed.

Lemma nested_in l ps q : nested l ps → q ∈ ps → q ∈ pps_all l.
Proof.
  assert (∀ p l, p ∈ l → ∃ a b, pps_all l = a ++ p :: pps_all (p_onf p) ++ b) as Hin.
  { intros p l' Hp. apply elem_of_list_split in Hp as (l1 & l2 & ->). exists (pps_all l1), (pps_all l2).
    rewrite pps_all_app, pps_all_cons. f_equal. destruct p as [id cond ignf ignm onf c]. by rewrite pp_all_eq. }
  induction 1 as [l p Hp|l p ps Hp _ IH]; destruct (Hin p l Hp) as (a & b & ->); intros Hq; apply elem_of_app; right; apply elem_of_cons.
  - apply elem_of_list_singleton in Hq. auto.
  - apply elem_of_cons in Hq as [->|Hq]; [auto|]. right. apply elem_of_app. left. auto.
Qed.
Lemma Process_unwound_data pl w evt w' : Process_fate pl w evt = Unwound w' →
  ∃ p w1 pe1, p ∈ pl_all pl ∧ pe_data pe1 = evt ∧ run_fate (p_prog p) (inc w1 (p_id p) MIn) pe1 = Unwound w'.
Proof.
  intros E. destruct (Process_unwound pl w evt w' E) as (ps & _ & Hn & (p & w1 & pe1 & Hl & Hd & Hr) & _).
  exists p, w1, pe1. split; [|done]. assert (p ∈ ps) as Hp.
  { clear -Hl. induction ps as [|q [|q' ps] IH]; [done| |].
    - injection Hl as ->. by apply elem_of_list_singleton.
    - apply elem_of_cons. right. by apply IH. }
  unfold pl_all. rewrite elem_of_app. destruct Hn as [Hn|Hn]; [left|right]; by eapply nested_in.
Qed.

(** ** The methods of event.go change nothing before they panic *)
(** event.go:77-92 with the heap at the panic: the second component is [None] if the
    loop panicked. *)
Fixpoint put_loop_f (full : list string) (h : heap) (m : option mref) (path : list string)
    (val : option ptr) : heap * option (option goerr) :=
  match path with
  | [] => (h, Some None)
  | [k] =>
      match map_write h m k val with
      | Ok h' => (h', Some None)
      | Panic => (h, None)
      end
  | k :: rest =>
      match mget k (map_of h m) with
      | Some op =>
          match deref h op with
          | Panic => (h, None)
          | Ok inner =>
              if N.eqb (v_type inner) ObjectType
              then put_loop_f full h (v_obj inner) rest val
              else (h, Some (Some (EWrap (errPathPrefix full) (ESent STargetKeyNotObject))))
          end
      | None =>
          let '(h1, r) := alloc_map h in
          let '(h2, p) := alloc_val h1 (mkObject (Some r)) in
          match map_write h2 m k (Some p) with
          | Panic => (h2, None)
          | Ok h3 => put_loop_f full h3 (Some r) rest val
          end
      end
  end.
(** event.go:60-93: the heap and the event at the end or at the panic. *)
Definition put_f (h : heap) (e : event) (path : list string) (val : option ptr) (overwrite : bool)
  : heap * event * option (option ptr * option goerr) :=
  match path with
  | [] => (h, e, Some (None, Some (EWrap "event put failed: " (ESent SEmptyKey))))
  | _ =>
      match val with
      | None => (h, e, Some (None, None))
      | Some _ =>
          let '(h1, e1) :=
            match fields e with
            | None => let '(h1, r) := alloc_map h in (h1, mkEvent (Some r))
            | Some _ => (h, e)
            end in
          match get_path h1 e1 path with
          | Panic => (h1, e1, None)
          | Ok (h2, old) =>
              if (match old with Some _ => true | None => false end) && negb overwrite
              then (h2, e1, Some (old, Some (EWrap (errPathPrefix path) (ESent SKeyExists))))
              else
                match put_loop_f path h2 (fields e1) path val with
                | (h3, None) => (h3, e1, None)
                | (h3, Some (Some err)) => (h3, e1, Some (None, Some err))
                | (h3, Some None) => (h3, e1, Some (old, None))
                end
          end
      end
  end.

(** Nothing that was there has changed. *)
Definition untouched (h h' : heap) : Prop :=
  (∀ p v, hvals h !! p = Some v → hvals h' !! p = Some v) ∧ (∀ r m, hmaps h !! r = Some m → hmaps h' !! r = Some m).

Lemma put_loop_f_same full val : ∀ path h m,
  put_loop full h m path val =
    match put_loop_f full h m path val with (h', Some err) => Ok (h', err) | (_, None) => Panic end.
Proof.
  induction path as [|k [|k2 path] IH]; intros h m; [done| |].
  - cbn [put_loop put_loop_f]. by destruct (map_write h m k val).
  - change (put_loop full h m (k :: k2 :: path) val) with
      (match mget k (map_of h m) with
       | Some op => match deref h op with
                    | Panic => Panic
                    | Ok inner => if N.eqb (v_type inner) ObjectType then put_loop full h (v_obj inner) (k2 :: path) val
                                  else Ok (h, Some (EWrap (errPathPrefix full) (ESent STargetKeyNotObject)))
                    end
       | None => let '(h1, r) := alloc_map h in
                 let '(h2, p) := alloc_val h1 (mkObject (Some r)) in
                 match map_write h2 m k (Some p) with
                 | Panic => Panic
                 | Ok h3 => put_loop full h3 (Some r) (k2 :: path) val
                 end
       end).
    change (put_loop_f full h m (k :: k2 :: path) val) with
      (match mget k (map_of h m) with
       | Some op => match deref h op with
                    | Panic => (h, None)
                    | Ok inner => if N.eqb (v_type inner) ObjectType then put_loop_f full h (v_obj inner) (k2 :: path) val
                                  else (h, Some (Some (EWrap (errPathPrefix full) (ESent STargetKeyNotObject))))
                    end
       | None => let '(h1, r) := alloc_map h in
                 let '(h2, p) := alloc_val h1 (mkObject (Some r)) in
                 match map_write h2 m k (Some p) with
                 | Panic => (h2, None)
                 | Ok h3 => put_loop_f full h3 (Some r) (k2 :: path) val
                 end
       end).
    destruct (mget k (map_of h m)) as [op|].
    + destruct (deref h op) as [v|]; [|done]. destruct (N.eqb (v_type v) ObjectType); [apply IH|done].
    + destruct (alloc_map h) as [h1 r]. destruct (alloc_val h1 (mkObject (Some r))) as [h2 p].
      destruct (map_write h2 m k (Some p)); [apply IH|done].
Qed.

Lemma put_f_same h e path val ow :
  put h e path val ow =
    match put_f h e path val ow with
    | (h', e', Some (old, err)) => Ok (mkPut h' e' old err)
    | (_, _, None) => Panic
    end.
Proof.
  unfold put, put_f. destruct path as [|k path]; [done|]. destruct val as [v|]; [|done].
  destruct (match fields e with None => _ | Some _ => _ end) as [h1 e1].
  destruct (get_path h1 e1 (k :: path)) as [[h2 old]|]; [|done].
  destruct (_ && negb ow); [done|]. rewrite put_loop_f_same.
  destruct (put_loop_f (k :: path) h2 (fields e1) (k :: path) (Some v)) as [h3 [[err|]|]]; done.
Qed.

(** Below a map that is there, and contains at most itself, the loop does not panic. *)
Definition harmless (h : heap) (r : mref) : Prop :=
  ∃ gm, hmaps h !! r = Some gm ∧ ∀ k op, mget k gm = Some op → ∃ p v, op = Some p ∧ hvals h !! p = Some v ∧ v_obj v = Some r.
Lemma put_loop_f_harmless full val : ∀ path h r, harmless h r → (put_loop_f full h (Some r) path val).2 ≠ None.
Proof.
  induction path as [|k [|k2 path] IH]; intros h r (gm & Hr & Hgm); [done| |].
  - cbn [put_loop_f map_write]. by rewrite Hr.
  - change (put_loop_f full h (Some r) (k :: k2 :: path) val) with
      (match mget k (map_of h (Some r)) with
       | Some op => match deref h op with
                    | Panic => (h, None)
                    | Ok inner => if N.eqb (v_type inner) ObjectType then put_loop_f full h (v_obj inner) (k2 :: path) val
                                  else (h, Some (Some (EWrap (errPathPrefix full) (ESent STargetKeyNotObject))))
                    end
       | None => let '(h1, r1) := alloc_map h in
                 let '(h2, p) := alloc_val h1 (mkObject (Some r1)) in
                 match map_write h2 (Some r) k (Some p) with
                 | Panic => (h2, None)
                 | Ok h3 => put_loop_f full h3 (Some r1) (k2 :: path) val
                 end
       end).
    cbn [map_of]. rewrite Hr. destruct (mget k gm) as [op|] eqn:Ek.
    + destruct (Hgm _ _ Ek) as (p & v & -> & Hp & Hv). cbn [deref]. rewrite Hp.
      destruct (N.eqb (v_type v) ObjectType); [|done]. rewrite Hv. apply IH. by exists gm.
    + cbn [alloc_map alloc_val hvals hmaps map_write].
      assert (r < length (hmaps h)) as Lr by (by eapply lookup_lt_Some).
      rewrite lookup_app_l, Hr by done. apply IH. exists []. split; [|done]. cbn [hmaps].
      rewrite list_lookup_insert_ne by lia. by rewrite list_lookup_middle.
Qed.

Lemma put_loop_f_panic full val : ∀ path h m h',
  put_loop_f full h m path val = (h', None) → untouched h h'.
Proof.
  induction path as [|k [|k2 path] IH]; intros h m h' E; [done| |].
  - cbn [put_loop_f] in E. destruct (map_write h m k val); [done|]. injection E as <-. split; auto.
  - change (put_loop_f full h m (k :: k2 :: path) val) with
      (match mget k (map_of h m) with
       | Some op => match deref h op with
                    | Panic => (h, None)
                    | Ok inner => if N.eqb (v_type inner) ObjectType then put_loop_f full h (v_obj inner) (k2 :: path) val
                                  else (h, Some (Some (EWrap (errPathPrefix full) (ESent STargetKeyNotObject))))
                    end
       | None => let '(h1, r) := alloc_map h in
                 let '(h2, p) := alloc_val h1 (mkObject (Some r)) in
                 match map_write h2 m k (Some p) with
                 | Panic => (h2, None)
                 | Ok h3 => put_loop_f full h3 (Some r) (k2 :: path) val
                 end
       end) in E.
    destruct (mget k (map_of h m)) as [op|].
    + destruct (deref h op) as [v|]; [|injection E as <-; split; auto].
      destruct (N.eqb (v_type v) ObjectType); [by eapply IH|done].
    + cbn [alloc_map alloc_val hvals hmaps] in E.
      set (h2 := mkHeap (hvals h ++ [mkObject (Some (length (hmaps h)))]) (hmaps h ++ [ [] ])) in *.
      assert (untouched h h2) as Hu.
      { split; intros x y Hx; cbn [hvals hmaps h2]; (rewrite lookup_app_l; [done|by eapply lookup_lt_Some]). }
      destruct (map_write h2 m k (Some (length (hvals h)))) as [h3|] eqn:Ew.
      * exfalso. destruct m as [r|]; [|done]. cbn [map_write] in Ew.
        destruct (hmaps h2 !! r) as [gm|] eqn:Er; [|done]. injection Ew as <-.
        eapply (put_loop_f_harmless full val (k2 :: path)); [|by rewrite E].
        destruct (decide (r = length (hmaps h))) as [->|Hne].
        -- cbn [h2 hmaps] in Er. rewrite list_lookup_middle in Er by done. injection Er as <-.
           exists (mset k (Some (length (hvals h))) []). split.
           { cbn [hmaps]. apply list_lookup_insert. cbn [h2 hmaps]. rewrite app_length. simpl. lia. }
           intros k' op Hop. cbn [mset] in Hop. cbn [mget] in Hop. destruct (String.eqb k' k); [|done].
           injection Hop as <-. do 2 eexists. split; [done|]. cbn [hvals h2]. by rewrite list_lookup_middle.
        -- exists []. split; [|done]. cbn [hmaps].
           rewrite list_lookup_insert_ne by done. cbn [h2 hmaps]. by rewrite list_lookup_middle.
      * injection E as <-. done.
Qed.

Lemma put_f_panic h e path val ow h' e' :
  put_f h e path val ow = (h', e', None) → untouched h h' ∧ e' = e.
Proof.
  unfold put_f. destruct path as [|k path]; [done|]. destruct val as [v|]; [|done].
  destruct (fields e) as [r|] eqn:Ef.
  - destruct (get_path h e (k :: path)) as [[h2 old]|] eqn:Eg.
    2:{ intros [= <- <-]. split; [split; auto|done]. }
    assert (h2 = h) as ->.
    { unfold get_path in Eg. destruct (map_of h (fields e)); [congruence|]. destruct (get_loop _ _ _); congruence. }
    destruct (_ && negb ow); [done|].
    destruct (put_loop_f (k :: path) h (fields e) (k :: path) (Some v)) as [h3 [[err|]|]] eqn:El; [done|done|].
    intros [= <- <-]. split; [by eapply put_loop_f_panic|done].
  - cbn [alloc_map]. unfold get_path. cbn [fields map_of hmaps]. rewrite list_lookup_middle by done. cbn [andb].
    destruct (put_loop_f (k :: path) _ _ (k :: path) (Some v)) as [h3 [[err|]|]] eqn:El; [done|done|].
    exfalso. eapply (put_loop_f_harmless (k :: path) (Some v) (k :: path)); [|by rewrite El].
    exists []. split; [|done]. cbn [hmaps]. by rewrite list_lookup_middle.
Qed.
