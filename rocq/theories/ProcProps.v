(** * Property theorems for the processors and eventutil.Append: C29-C32, C46.

    [runs_on w pe i m fp]: the processor is called with event number [i], which
    shows the fields [m] and is made of the containers [fp].  [leaves w w' i fp m']:
    afterwards that event shows [m'] and nothing outside it (other events, other
    values, metrics, environment) changed.  [put_outcome path t m m' err]: error and
    contents are those of storing [t] at [path] (empty key / blocked by a
    non-object / written and nothing else changed). *)
From Verif Require Import ProcRun EventFacts PipelineRun.

(** What a write leaves behind is determined by what was there. *)
Theorem C04_contents_determined : ∀ path t m m1 m2,
  written path t m m1 → written path t m m2 → path ≠ [] →
  mclean m → mclean m1 → mclean m2 → m1 = m2.
Proof. exact written_unique. Qed.
Print Assumptions C04_contents_determined.

(** A concrete world: the event {a: {x: 1}, b: "s"} and, apart from it, the value
    {y: [true]} at [ex_ptr], a null value at 7. *)
Definition ex_world : world :=
  mkWorld (alloc_val ex_heap mkNull).1 [ex_event] [] [].
Definition ex_pe : pevent := mkPEvent (Some 0) false false.

Lemma ex_world_ok : mclean ex_tree ∧ ∃ fp fpv, runs_on ex_world ex_pe 0 ex_tree fp ∧
  rep (w_heap ex_world) (Some ex_ptr) ex_value fpv ∧ tclean ex_value ∧ ex_value ≠ TNull ∧
  NoDup (fp ++ fpv) ∧ hvals (w_heap ex_world) !! 7 = Some mkNull.
Proof.
  split; [cbn; repeat (split || constructor)|].
  destruct ex_rep as (fp & fpv & H1 & H2 & H3). exists fp, fpv.
  pose proof (stable_alloc_val ex_heap mkNull noW) as Hst.
  split_and!; [|eapply rep_frame; [exact H2|exact Hst|auto]|cbn; repeat (split || constructor)|done|done|reflexivity].
  split; [done|]. exists ex_event. split; [done|].
  eapply ev_rep_frame; [exact H1|exact Hst|auto].
Qed.

(** ** C29 *)
(** With a value: it is stored at target_field, and Get returns that value. *)
Theorem C29_set_value : ∀ c w pe i m fp t fpv,
  runs_on w pe i m fp → mclean m →
  rep (w_heap w) (Some (se_value c)) t fpv → tclean t → t ≠ TNull → NoDup (fp ++ fpv) →
  ∃ w' m' err, run_prog (set_process c) w pe = Ok (w', pe, err) ∧
    leaves w w' i fp m' ∧ mclean m' ∧ (err ≠ None → w' = w) ∧
    put_outcome (spec_path (se_target c)) t m m' err ∧
    (err = None → ∃ e', w_events w' !! i = Some e' ∧
       Get (w_heap w') e' (se_target c) = Ok (w_heap w', Some (se_value c))).
Proof. intros c. rewrite <-keyToPath_spec. apply set_value_run. Qed.
Print Assumptions C29_set_value.

(** Without a value, with copy_from.  The copied value is the same one, so the
    event afterwards may share containers. *)
Theorem C29_set_copy : ∀ c w pe i m fp v,
  runs_on w pe i m fp → mclean m →
  hvals (w_heap w) !! se_value c = Some v → v_type v = NullType → se_copy_from c ≠ "" →
  spec_path (se_copy_from c) ≠ [] →
  (∀ s, spec_path (se_target c) = spec_path (se_copy_from c) ++ s → s = []) →
  ∃ w' m' err, run_prog (set_process c) w pe = Ok (w', pe, err) ∧
    leaves_shared w w' i fp m' ∧ mclean m' ∧ (err ≠ None → w' = w) ∧
    match tlookup (spec_path (se_copy_from c)) m with
    | None => err = Some (EKeyMissing (se_copy_from c)) ∧ m' = m
    | Some t => put_outcome (spec_path (se_target c)) t m m' err
    end.
Proof. intros c. rewrite <-!keyToPath_spec. apply set_copy_run. Qed.
Print Assumptions C29_set_copy.

(** With neither. *)
Theorem C29_set_nothing : ∀ c w pe i e v,
  pe_data pe = Some i → w_events w !! i = Some e →
  hvals (w_heap w) !! se_value c = Some v → v_type v = NullType → se_copy_from c = "" →
  run_prog (set_process c) w pe =
  Ok (w, pe, if decide (spec_path (se_target c) = []) then Some err_empty else None).
Proof. intros c. rewrite <-keyToPath_spec. apply set_nothing_run. Qed.
Print Assumptions C29_set_nothing.

Example C29_ex : 
  (∃ w' err, run_prog (set_process (mkSet "" "a.new.z" ex_ptr)) ex_world ex_pe = Ok (w', ex_pe, err) ∧ err = None) ∧
  (∃ w' err, run_prog (set_process (mkSet "a" "b" 7)) ex_world ex_pe = Ok (w', ex_pe, err) ∧ err = None) ∧
  spec_path "a" ≠ [] ∧ (∀ s, spec_path "b" = spec_path "a" ++ s → s = []).
Proof.
  split_and!; [by eexists _, _..|done|]. intros s H. vm_compute in H. congruence.
Qed.

(** Copying an object into itself: the event afterwards contains itself, so
    target_field does not hold a copy of what was at copy_from. *)
Theorem C29_copy_into_itself_refuted : ∃ w pe i m fp c w' p,
  runs_on w pe i m fp ∧ mclean m ∧ se_copy_from c = "a" ∧ se_target c = "a.b" ∧
  tlookup ["a"; "b"] m = None ∧
  run_prog (set_process c) w pe = Ok (w', pe, None) ∧
  ∃ e', w_events w' !! i = Some e' ∧
    Get (w_heap w') e' "a" = Ok (w_heap w', Some p) ∧
    Get (w_heap w') e' "a.b" = Ok (w_heap w', Some p) ∧
    Get (w_heap w') e' "a.b.b.b.b" = Ok (w_heap w', Some p).
Proof.
  destruct ex_world_ok as [Hm (fp & fpv & H1 & _)].
  eexists ex_world, ex_pe, 0, ex_tree, fp, (mkSet "a" "a.b" 7), _, _.
  split; [done|]. split; [done|]. do 3 (split; [reflexivity|]).
  split; [vm_compute; reflexivity|]. eexists. split; [reflexivity|].
  split; [vm_compute; reflexivity|]. split; vm_compute; reflexivity.
Qed.
Print Assumptions C29_copy_into_itself_refuted.

(** ** C30 *)
(** Full statement wanted: arrays of strings are converted element by element (as
    documented).  Proved: everything else, with arrays rejected. *)
Theorem C30_lowercase_partial : ∀ tolower c w pe i m fp,
  runs_on w pe i m fp → mclean m →
  ∃ w' m' err, run_prog (lowercase_process tolower c) w pe = Ok (w', pe, err) ∧
    leaves w w' i fp m' ∧ mclean m' ∧ (err ≠ None → m' = m) ∧
    match field_value (spec_path (cs_field c)) m with
    | None => err = Some (EKeyMissing (cs_field c)) ∧ m' = m
    | Some (TStr s) =>
        put_outcome (spec_path (if String.eqb (cs_target c) "" then cs_field c else cs_target c))
                    (TStr (tolower s)) m m' err
    | Some _ => err = Some (EMsg "value to lowercase is not a string") ∧ m' = m
    end.
Proof. intros f c. rewrite <-!keyToPath_spec. apply case_run. Qed.
Print Assumptions C30_lowercase_partial.

Theorem C30_uppercase_partial : ∀ toupper c w pe i m fp,
  runs_on w pe i m fp → mclean m →
  ∃ w' m' err, run_prog (uppercase_process toupper c) w pe = Ok (w', pe, err) ∧
    leaves w w' i fp m' ∧ mclean m' ∧ (err ≠ None → m' = m) ∧
    match field_value (spec_path (cs_field c)) m with
    | None => err = Some (EKeyMissing (cs_field c)) ∧ m' = m
    | Some (TStr s) =>
        put_outcome (spec_path (if String.eqb (cs_target c) "" then cs_field c else cs_target c))
                    (TStr (toupper s)) m m' err
    | Some _ => err = Some (EMsg "value to uppercase is not a string") ∧ m' = m
    end.
Proof. intros f c. rewrite <-!keyToPath_spec. apply case_run. Qed.
Print Assumptions C30_uppercase_partial.

(** The documented conversion of arrays of strings: always an error instead. *)
Theorem C30_array_of_strings_refuted : ∀ f c w pe i m fp l,
  runs_on w pe i m fp → mclean m →
  field_value (spec_path (cs_field c)) m = Some (TArr l) → Forall (λ t, ∃ s, t = TStr s) l →
  (∃ w' e, run_prog (lowercase_process f c) w pe = Ok (w', pe, Some e) ∧ leaves w w' i fp m) ∧
  (∃ w' e, run_prog (uppercase_process f c) w pe = Ok (w', pe, Some e) ∧ leaves w w' i fp m).
Proof.
  intros f c w pe i m fp l H1 H2 H3 _. split.
  - destruct (C30_lowercase_partial f c w pe i m fp H1 H2) as (w' & m' & err & Hr & Hl & _ & _ & Hx).
    rewrite H3 in Hx. destruct Hx as [-> ->]. eauto.
  - destruct (C30_uppercase_partial f c w pe i m fp H1 H2) as (w' & m' & err & Hr & Hl & _ & _ & Hx).
    rewrite H3 in Hx. destruct Hx as [-> ->]. eauto.
Qed.
Print Assumptions C30_array_of_strings_refuted.

Example C30_ex : field_value (spec_path "b") ex_tree = Some (TStr "s") ∧
  field_value (spec_path "k") [("k", TArr [TStr "A"; TStr "B"])] = Some (TArr [TStr "A"; TStr "B"]).
Proof. split; vm_compute; reflexivity. Qed.

(** ** C31 *)
(** Full statement wanted: a scalar field becomes an array of the old value and the
    new one, and a value that cannot be stored is an error.  Proved: exactly what
    happens, case by case. *)
Theorem C31_append_partial : ∀ c w pe i m fp,
  runs_on w pe i m fp → mclean m →
  ∃ w' m' err, run_prog (append_process c) w pe = Ok (w', pe, err) ∧
    leaves w w' i fp m' ∧ mclean m' ∧
    match field_value (spec_path (ap_field c)) m with
    | None =>
        err = None ∧
        (if decide (spec_path (ap_field c) = []) then m' = m
         else (blocked (spec_path (ap_field c)) m ∧ m' = m) ∨
              (¬ blocked (spec_path (ap_field c)) m ∧
               written (spec_path (ap_field c)) (TArr [TStr (ap_value c)]) m m'))
    | Some t =>
        match array_elems t with
        | Some ts => err = None ∧ written (spec_path (ap_field c)) (TArr (ts ++ [TStr (ap_value c)])) m m'
        | None =>
            match t with
            | TStr _ => err = None ∧ m' = m
            | _ => err = Some (EMsg "value to append to is not array") ∧ m' = m
            end
        end
    end.
Proof. intros c. rewrite <-keyToPath_spec. apply append_run. Qed.
Print Assumptions C31_append_partial.

(** Appending to a string field does nothing and reports no error. *)
Theorem C31_append_to_string_refuted : ∀ c w pe i m fp s,
  runs_on w pe i m fp → mclean m → field_value (spec_path (ap_field c)) m = Some (TStr s) →
  ∃ w', run_prog (append_process c) w pe = Ok (w', pe, None) ∧ leaves w w' i fp m.
Proof.
  intros c w pe i m fp s H1 H2 H3.
  destruct (C31_append_partial c w pe i m fp H1 H2) as (w' & m' & err & Hr & Hl & _ & Hx).
  rewrite H3 in Hx. destruct Hx as [-> ->]. eauto.
Qed.
Print Assumptions C31_append_to_string_refuted.

(** Appending at an empty key, or below a non-object, does nothing and reports no
    error. *)
Theorem C31_put_error_ignored_refuted : ∀ c w pe i m fp,
  runs_on w pe i m fp → mclean m →
  (spec_path (ap_field c) = [] ∧ m = []) ∨ blocked (spec_path (ap_field c)) m →
  ∃ w', run_prog (append_process c) w pe = Ok (w', pe, None) ∧ leaves w w' i fp m.
Proof.
  intros c w pe i m fp H1 H2 H3.
  destruct (C31_append_partial c w pe i m fp H1 H2) as (w' & m' & err & Hr & Hl & _ & Hx).
  assert (field_value (spec_path (ap_field c)) m = None) as Hn.
  { destruct H3 as [[-> ->]|Hb]; [done|].
    destruct (field_value _ m) as [t|] eqn:E; [|done]. exfalso.
    assert (spec_path (ap_field c) ≠ []) as Hne.
    { destruct Hb as (q & sub & t' & -> & Hq & _). by destruct q. }
    rewrite field_value_ne in E by done. by eapply tlookup_not_blocked in E. }
  rewrite Hn in Hx. destruct Hx as [-> Hx].
  assert (m' = m) as ->.
  { destruct (decide _) as [?|Hne]; [done|]. destruct H3 as [[? _]|Hb]; [done|].
    destruct Hx as [[_ ?]|[? _]]; done. }
  eauto.
Qed.
Print Assumptions C31_put_error_ignored_refuted.

(** allow_duplicates is false by default, yet a value already present is appended
    again. *)
Theorem C31_duplicates_refuted : ∀ c w pe i m fp l,
  runs_on w pe i m fp → mclean m →
  field_value (spec_path (ap_field c)) m = Some (TArr l) → TStr (ap_value c) ∈ l →
  ∃ w' m', run_prog (append_process c) w pe = Ok (w', pe, None) ∧ leaves w w' i fp m' ∧
    written (spec_path (ap_field c)) (TArr (l ++ [TStr (ap_value c)])) m m'.
Proof.
  intros c w pe i m fp l H1 H2 H3 _.
  destruct (C31_append_partial c w pe i m fp H1 H2) as (w' & m' & err & Hr & Hl & _ & Hx).
  rewrite H3 in Hx. destruct Hx as [-> Hx]. eauto.
Qed.
Print Assumptions C31_duplicates_refuted.

Example C31_ex : field_value (spec_path "b") ex_tree = Some (TStr "s") ∧
  blocked (spec_path "b.c") ex_tree ∧
  field_value (spec_path "k") [("k", TArr [TStr "A"])] = Some (TArr [TStr "A"]).
Proof.
  split_and!; [reflexivity| |reflexivity].
  exists ["b"], ["c"], (TStr "s"). split_and!; try reflexivity; try done. by intros [].
Qed.

(** ** C32 *)
Theorem C32_remove_does_nothing_refuted : ∀ c w pe,
  run_prog (remove_process c) w pe = Ok (w, pe, None).
Proof. reflexivity. Qed.
Print Assumptions C32_remove_does_nothing_refuted.

(** In particular a configured field is still there afterwards. *)
Theorem C32_field_survives_refuted : ∀ c w pe i m fp key t,
  runs_on w pe i m fp → key ∈ rm_fields c → tlookup (spec_path key) m = Some t →
  run_prog (remove_process c) w pe = Ok (w, pe, None) ∧ leaves w w i fp m.
Proof.
  intros c w pe i m fp key t (Hpe & e & He & Hr) _ _. split; [done|]. by eapply leaves_refl.
Qed.
Print Assumptions C32_field_survives_refuted.

(** ** C46 *)
Theorem C46_append : ∀ key p w pe i m fp t fpv,
  runs_on w pe i m fp → mclean m →
  rep (w_heap w) (Some p) t fpv → tclean t → NoDup (fp ++ fpv) →
  ∃ w' m' err t', run_prog (eventutil_append key (Some p)) w pe = Ok (w', pe, err) ∧
    leaves w w' i fp m' ∧ mclean m' ∧
    array_elems t' = Some (match field_value (spec_path key) m with
                           | None => []
                           | Some t0 => elems_or_single t0
                           end ++ elems_or_single t) ∧
    put_outcome (spec_path key) t' m m' err.
Proof. intros key. rewrite <-keyToPath_spec. apply eventutil_append_run. Qed.
Print Assumptions C46_append.

Theorem C46_append_nil : ∀ key w pe, run_prog (eventutil_append key None) w pe = Ok (w, pe, None).
Proof. reflexivity. Qed.
Print Assumptions C46_append_nil.

Example C46_ex : ∃ w', run_prog (eventutil_append "b" (Some ex_ptr)) ex_world ex_pe = Ok (w', ex_pe, None) ∧
  elems_or_single (TStr "s") ++ elems_or_single ex_value = [TStr "s"; ex_value].
Proof. eexists. split; vm_compute; reflexivity. Qed.
