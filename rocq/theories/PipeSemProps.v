(** * C55: what a pipeline of built-in processors does to an event.

    [sem_pipe b m] (PipeSpec.v) is the specification: what the pipeline configured as
    [b] makes of the fields [m], with the error and the counters incremented, in order;
    a function of nested maps, without pointers.  [pipe_as h b pl]: [pl] is the pipeline
    configured as [b], the values of its [set] processors being in heap [h].
    [showing w i m fp]: in [w] event [i] shows the fields [m], its containers being [fp].
    [Process pl w (Some i)]: (p *Pipeline) Process called on event [i]. *)
From Verif Require Import PipeSem PipelineRun JsonEvent.
From Coq Require Import Lia.

Theorem C55_pipeline_semantics_partial : ∀ b pl w i m fp,
  pipe_as (w_heap w) b pl → showing w i m fp →
  match sem_pipe b m with
  | Gives (m', err, counted) => ∃ w' fp',
      Process pl w (Some i) = Ok (w', match err with None => Some i | Some _ => None end, err) ∧
      showing w' i m' fp' ∧ w_log w' = w_log w ++ counted ∧
      (* other events keep their fields, the pipeline its configuration *)
      (∀ j mj fpj, j ≠ i → showing w j mj fpj → (∀ l, l ∈ fpj → l ∉ fp) →
         showing w' j mj fpj ∧ ∀ l, l ∈ fpj → l ∉ fp') ∧
      pipe_as (w_heap w') b pl
  | Crashes => Process pl w (Some i) = Panic
  | Shares => True  (* not covered: a container was copied *)
  end.
Proof.
  intros b pl w i m fp Hb Hs. pose proof (pipe_sem b pl w (mkPEvent (Some i) false false) i m fp Hb eq_refl eq_refl Hs) as H.
  unfold Process. destruct (sem_pipe b m) as [[[m' err] lg]| |]; cbn [grun_to] in H; [|by rewrite H|done].
  destruct H as (w' & -> & Hm & Hlg). destruct Hm as ((fp' & Hsh & Hfp) & Hst & Hj & _).
  exists w', fp'. split; [by destruct err|]. split; [done|]. split; [done|]. split.
  - intros j mj fpj Hne (e & He & Hev) Hd. split.
    + exists e. rewrite Hj by done. split; [done|]. eapply ev_rep_frame; [exact Hev|exact Hst|exact Hd].
    + intros l Hl Hl'. destruct (Hfp _ Hl') as [?|Hf]; [by apply (Hd l)|].
      apply (ev_rep_alloc _ _ _ _ _ Hev) in Hl. destruct l; simpl in Hl, Hf; lia.
  - destruct Hb as [Hb1 Hb2]. split; (eapply Forall2_impl; [eassumption|]); intros; by eapply built_as_stable.
Qed.
Print Assumptions C55_pipeline_semantics_partial.

(** Events without null values never make it crash, whatever the keys, and stay so. *)
Theorem C55_no_crash : ∀ b, Forall (λ c, match c with BSet _ t => tclean t | _ => True end) (pipe_confs b) →
  ∀ m, mclean m → match sem_pipe b m with Gives (m', _, _) => mclean m' | Crashes => False | Shares => True end.
Proof. intros b Hb m Hm. pose proof (clean_keeps b Hb m Hm) as H. by destruct (sem_pipe b m) as [[[]]| |]. Qed.
Print Assumptions C55_no_crash.
(** Without copy_from nothing is left unspecified. *)
Theorem C55_no_copy : ∀ b, Forall (λ c, match c with BCopy _ _ => False | _ => True end) (pipe_confs b) →
  ∀ m, sem_pipe b m ≠ Shares.
Proof. exact sem_pipe_shares. Qed.
Print Assumptions C55_no_copy.

(** Together: on an event without null values a pipeline without copy_from returns, with
    the fields, the error and the counters of the specification. *)
Theorem C55_total : ∀ b pl w i m fp,
  pipe_as (w_heap w) b pl → showing w i m fp → mclean m →
  Forall (λ c, match c with BCopy _ _ => False | _ => True end) (pipe_confs b) →
  ∃ m' err counted w' fp', sem_pipe b m = Gives (m', err, counted) ∧ mclean m' ∧
    Process pl w (Some i) = Ok (w', match err with None => Some i | Some _ => None end, err) ∧
    showing w' i m' fp' ∧ w_log w' = w_log w ++ counted.
Proof.
  intros b pl w i m fp Hb Hs Hm Hn. pose proof (C55_no_crash b (pipe_as_clean _ _ _ Hb) m Hm) as H1.
  pose proof (C55_no_copy b Hn m) as H2. pose proof (C55_pipeline_semantics_partial b pl w i m fp Hb Hs) as H3.
  destruct (sem_pipe b m) as [[[m' err] lg]| |]; [|done|done]. destruct H3 as (w' & fp' & H3 & H4 & H5 & _). by exists m', err, lg, w', fp'.
Qed.
Print Assumptions C55_total.

(** A null in the JSON text of an event does crash the pipeline, whatever the options. *)
Theorem C55_null_crashes_refuted : ∃ h e,
  UnmarshalText emptyHeap newEvent (list_ascii_of_string "{""a"":null}") = (h, e, false) ∧
  ∀ id cond ignore_failure ignore_missing on_failure onf f target,
    Process (mkPipeline "p" [PProc id cond ignore_failure ignore_missing on_failure (lowercase_process f (mkCase "a.b" target))] onf)
      (mkWorld h [e] [] []) (Some 0) = Panic.
Proof. eexists _, _. split; [vm_compute; reflexivity|]. intros. vm_compute. reflexivity. Qed.
Print Assumptions C55_null_crashes_refuted.
(** So does a nil event, unless no processor looks at it. *)
Theorem C55_nil_event_crashes_refuted : ∀ w id cond ignore_failure ignore_missing on_failure f c l onf,
  Process (mkPipeline "p" (PProc id cond ignore_failure ignore_missing on_failure (lowercase_process f c) :: l) onf) w None = Panic.
Proof. done. Qed.
Print Assumptions C55_nil_event_crashes_refuted.

(** The contract of community_id, that it sets the target field, does not hold: it does
    nothing. *)
Theorem C55_community_id_refuted : ∀ id ignore_failure ignore_missing on_failure m,
  sem_pipe (mkBPipe [BProc id ignore_failure ignore_missing on_failure BCommunityID] []) m = Gives (m, None, [(id, MIn); (id, MOut)]).
Proof. done. Qed.

(** An example: lowercase of a missing field fails and its handler sets a field; then
    append makes an array.  The hypotheses hold and the result is as specified. *)
Definition low (s : string) : string := if String.eqb s "WARN" then "warn" else s.
Definition ex_b : bpipe := mkBPipe
  [BProc "p.0" false false [BProc "p.0.h" false false [] (BSet "tags.kind" (TBool true))] (BLowercase low "log.level" "");
   BProc "p.1" false false [] (BAppend "tags.seen" "x");
   BProc "p.2" true false [] (BUppercase low "tags" "")] [].
Definition ex_pl : pipeline := mkPipeline "p"
  [PProc "p.0" "" false false [PProc "p.0.h" "" false false [] (set_process (mkSet "" "tags.kind" 0))] (lowercase_process low (mkCase "log.level" ""));
   PProc "p.1" "" false false [] (append_process (mkAppend "tags.seen" "x"));
   PProc "p.2" "" true false [] (uppercase_process low (mkCase "tags" ""))] [].
Definition ex_w : world := mkWorld (mkHeap [mkBool true] []) [newEvent] [] [].
Example C55_ex : pipe_as (w_heap ex_w) ex_b ex_pl ∧ showing ex_w 0 [] [] ∧
  sem_pipe ex_b [] = Gives ([("tags", TObj [("kind", TBool true); ("seen", TArr [TStr "x"])])], None,
    [("p.0", MIn); ("p.0.h", MIn); ("p.0.h", MOut); ("p.0", MErrors); ("p.1", MIn); ("p.1", MOut); ("p.2", MIn); ("p.2", MOut)]) ∧
  ∃ w', Process ex_pl ex_w (Some 0) = Ok (w', Some 0, None).
Proof.
  assert (holds (w_heap ex_w) 0 (TBool true)) as Hh by (by exists (mkBool true)).
  split_and!.
  - split; [|constructor]. unfold ex_b, ex_pl. cbn [bp_processors pl_processors].
    repeat (apply Forall2_cons; split); [| | |apply Forall2_nil_2].
    + constructor; [constructor|]. apply Forall2_cons. split; [|apply Forall2_nil_2]. constructor; [|apply Forall2_nil_2].
      by apply ra_set.
    + constructor; [constructor|apply Forall2_nil_2].
    + constructor; [constructor|apply Forall2_nil_2].
  - by exists newEvent.
  - vm_compute. reflexivity.
  - eexists. vm_compute. reflexivity.
Qed.
(** The field of a level that is there is lowered in place. *)
Example C55_ex_level : sem_pipe ex_b [("log", TObj [("level", TStr "WARN")])] =
  Gives ([("log", TObj [("level", TStr "warn")]); ("tags", TObj [("seen", TArr [TStr "x"])])], None,
    [("p.0", MIn); ("p.0", MOut); ("p.1", MIn); ("p.1", MOut); ("p.2", MIn); ("p.2", MOut)]).
Proof. vm_compute. reflexivity. Qed.
