(** * Decomposition of a Process call, and witness pipelines. *)
From Verif Require Export PipelineSim.

Lemma chain_log l w pe w' pe' :
  pe_dropped pe = false → chain l w pe w' pe' →
  ∃ lg, new_log w w' lg ∧ ∀ id m, (id, m) ∈ lg → id ∈ map p_id (pps_all l).
Proof.
  intros Hd Hc. apply (pps_log_ids l w pe None w' pe' None Hd).
  apply run_list_spec. left. split; [done|]. by destruct l.
Qed.

Lemma stopped_log before p w pe w1 pe1 w' pe' e :
  pe_dropped pe = false → chain before w pe w1 pe1 → pp_process p w1 pe1 = Ok (w', pe', Some e) →
  ∃ lg, new_log w w' lg ∧ (∀ id m, (id, m) ∈ lg → id ∈ map p_id (pps_all (before ++ [p]))).
Proof.
  intros Hd Hc Hp. apply (pps_log_ids (before ++ [p]) w pe None w' pe' (Some e) Hd).
  apply run_list_spec. right. exists e. split; [|done]. by exists before, p, [], w1, pe1.
Qed.

(** Everything Process can do. *)
Definition on_failure_outcome (onf : list pproc) (w : world) (pe : pevent) (e : goerr)
    (w' : world) (pe' : pevent) (err : option goerr) : Prop :=
  (onf = [] ∧ w' = w ∧ pe' = pe ∧ err = Some e) ∨
  (onf ≠ [] ∧ chain onf w pe w' pe' ∧ err = None) ∨
  (∃ e', stopped onf w pe w' pe' e' ∧ err = Some e').

Lemma run_list_onf l w pe e w' pe' r :
  run_list pp_process l w pe (Some e) = Ok (w', pe', r) ↔ on_failure_outcome l w pe e w' pe' r.
Proof.
  rewrite run_list_spec. unfold on_failure_outcome. split.
  - intros [[Hc ->]|H]; [|by right; right]. destruct l as [|p l].
    + destruct Hc as [-> ->]. by left.
    + right. left. done.
  - intros [(-> & -> & -> & ->)|[(Hn & Hc & ->)|H]]; [by left| |by right].
    left. split; [done|]. by destruct l.
Qed.

Lemma Process_cases pl w evt w' r err :
  Process pl w evt = Ok (w', r, err) →
  ∃ pe', r = (match err with None => evt | Some _ => None end) ∧
  ((chain (pl_processors pl) w (mkPEvent evt false false) w' pe' ∧ err = None) ∨
   (∃ before p after w1 pe1 w2 pe2 e,
      pl_processors pl = before ++ p :: after ∧
      chain before w (mkPEvent evt false false) w1 pe1 ∧
      pp_process p w1 pe1 = Ok (w2, pe2, Some e) ∧
      on_failure_outcome (pl_onf pl) w2 pe2 e w' pe' err)).
Proof.
  intros H. apply Process_pl in H as (pe' & H & ->). exists pe'. split; [done|].
  unfold pl_process in H.
  destruct (run_list _ (pl_processors pl) w _ None) as [[[w1 pe1] [e|]]|] eqn:E; [| |done].
  - right. apply run_list_spec in E as [[_ E]|(e' & (before & p & after & wa & pea & Hl & Hc & Hp) & E)].
    { by destruct (pl_processors pl). }
    injection E as <-. apply run_list_onf in H.
    exists before, p, after, wa, pea, w1, pe1, e. by split_and!.
  - left. injection H as <- <- <-. split; [|done].
    by apply run_list_spec in E as [[E _]|(e' & _ & [=])].
Qed.

Lemma chain_dropped l w pe w' pe' : chain l w pe w' pe' → pe_dropped pe' = pe_dropped pe.
Proof.
  intros Hc. apply (run_list_dropped l w pe None w' pe' None).
  apply run_list_spec. left. split; [done|]. by destruct l.
Qed.

Lemma NoDup_app_not_in (A : Type) (l1 l2 : list A) x : NoDup (l1 ++ l2) → x ∈ l1 → x ∉ l2.
Proof. intros H%NoDup_app Hx. by apply H. Qed.

Lemma sublist_in (A : Type) (l1 l2 : list A) x : l1 `sublist_of` l2 → x ∈ l1 → x ∈ l2.
Proof.
  induction 1 as [|y l1 l2 _ IH|y l1 l2 _ IH]; [done| |].
  - rewrite !elem_of_cons. naive_solver.
  - rewrite elem_of_cons. naive_solver.
Qed.

Lemma sublist_nodup (A : Type) (l1 l2 : list A) : l1 `sublist_of` l2 → NoDup l2 → NoDup l1.
Proof.
  induction 1 as [|y l1 l2 Hs IH|y l1 l2 _ IH]; [done| |].
  - rewrite !NoDup_cons. intros [Hn Hd]. split; [|by apply IH]. intros Hy. apply Hn. by eapply sublist_in.
  - rewrite NoDup_cons. naive_solver.
Qed.

(** After an unrecovered failure no later top-level processor (nor any of its
    handlers) is started. *)
Lemma Process_later_not_run pl w evt w' r err before p after w1 pe1 w2 pe2 e :
  NoDup (map p_id (pl_all pl)) →
  Process pl w evt = Ok (w', r, err) →
  pl_processors pl = before ++ p :: after →
  chain before w (mkPEvent evt false false) w1 pe1 →
  pp_process p w1 pe1 = Ok (w2, pe2, Some e) →
  ∃ lg, new_log w w' lg ∧ ∀ q m, q ∈ pps_all after → (p_id q, m) ∉ lg.
Proof.
  intros Hnd H Hl Hc Hp. apply Process_pl in H as (pe' & H & _). unfold pl_process in H.
  assert (run_list pp_process (pl_processors pl) w (mkPEvent evt false false) None = Ok (w2, pe2, Some e)) as E.
  { apply run_list_spec. right. exists e. split; [|done]. by exists before, p, after, w1, pe1. }
  rewrite E in H.
  destruct (stopped_log before p w (mkPEvent evt false false) w1 pe1 w2 pe2 e eq_refl Hc Hp) as (l1 & Hl1 & Hin1).
  assert (pe_dropped pe2 = false) as Hd2.
  { by apply run_list_dropped in E. }
  destruct (pps_log_ids _ _ _ _ _ _ _ Hd2 H) as (l2 & Hl2 & Hin2).
  exists (l1 ++ l2). unfold new_log in *. split; [by rewrite Hl2, Hl1, app_assoc|].
  intros q m Hq Hin. apply (elem_of_list_fmap_1 p_id) in Hq.
  change (p_id <$> pps_all after) with (map p_id (pps_all after)) in Hq.
  unfold pl_all in Hnd. rewrite Hl in Hnd.
  replace (before ++ p :: after) with ((before ++ [p]) ++ after) in Hnd by (by rewrite <-app_assoc).
  rewrite pps_all_app, !map_app in Hnd.
  apply elem_of_app in Hin as [Hin|Hin].
  - apply Hin1 in Hin. rewrite <-app_assoc in Hnd.
    eapply NoDup_app_not_in in Hnd; [|exact Hin]. apply Hnd, elem_of_app. by left.
  - apply Hin2 in Hin. rewrite <-app_assoc in Hnd. apply NoDup_app in Hnd as (_ & _ & Hnd).
    by eapply NoDup_app_not_in in Hnd.
Qed.

(** ** Witness programs and pipelines *)
Definition ok_prog : prog (option goerr) := Ret None.
Definition fail_prog : prog (option goerr) := Ret (Some (EMsg "failed")).
Definition missing_prog : prog (option goerr) := Ret (Some (EWrap "wrapped: " (EKeyMissing "k"))).
Definition cancel_prog : prog (option goerr) := PCancel (Ret None).
Definition drop_prog : prog (option goerr) := PDrop (Ret (Some (EMsg "dropped"))).
Definition simple (id : string) (c : prog (option goerr)) : pproc := PProc id "" false false [] c.

Definition w_init : world := mkWorld emptyHeap [newEvent] [] [].

Definition pl_cancel : pipeline := mkPipeline "p" [simple "a" cancel_prog; simple "b" ok_prog] [].
Definition pl_drop : pipeline := mkPipeline "p" [simple "a" (PDrop (Ret None)); simple "b" ok_prog] [].
Definition pl_drop_err : pipeline := mkPipeline "p" [simple "a" drop_prog] [].
Definition pl_recover : pipeline :=
  mkPipeline "p" [PProc "a" "" false false [simple "h" ok_prog] fail_prog; simple "b" ok_prog]
    [simple "g" ok_prog].
