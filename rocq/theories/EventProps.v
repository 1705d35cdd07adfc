(** * Property theorems for keys and events: C01-C11, C48.

    Vocabulary used in the statements (all from specification files):
    - [spec_path key]: the path of a key (KeyPath.v, specification section);
    - [rep h p t fp]: pointer [p] in heap [h] shows the tree [t], made of the
      mutable containers [fp]; [ev_rep h e m fp]: event [e] shows the nested map
      [m]; [NoDup (fp ++ fpv)]: event and value share no container;
    - [tlookup path m]: the value at a path of a nested map (Tree.v);
    - [mclean], [tclean]: no nil [*Value] and no nil map inside. *)
From Verif Require Import EventSeq EventShared EventFacts.

(** ** C01 *)
Theorem C01_keys_parse_as_documented : ∀ (h : heap) (e : event) (key : string) (v : option ptr),
  Get h e key = get_path h e (spec_path key) ∧
  Put h e key v = put h e (spec_path key) v true ∧
  TryPut h e key v = put h e (spec_path key) v false ∧
  EvDelete h e key = delete_path h e (spec_path key) ∧
  Forall (λ name, name ≠ "" ∧ has_backslash name = false) (spec_path key).
Proof.
  intros. unfold Get, Put, TryPut, EvDelete. rewrite !keyToPath_spec. repeat split.
  rewrite <-keyToPath_spec. apply keyToPath_segments.
Qed.
Print Assumptions C01_keys_parse_as_documented.

Example C01_ex : spec_path "..a\.b.\\c..d." = ["a.b"; "c"; "d"].
Proof. reflexivity. Qed.

(** ** C02 *)
Theorem C02_escape_join : ∀ names : list string,
  Forall (λ n, n ≠ "" ∧ has_backslash n = false) names →
  keyToPath (join_dots (map EscapeKey names)) = names.
Proof. exact keyToPath_join. Qed.
Print Assumptions C02_escape_join.

Theorem C02_escape_exactly : ∀ name : string,
  (keyToPath (EscapeKey name) = [name] ↔ name ≠ "" ∧ has_backslash name = false) ∧
  keyToPath (EscapeKey name) =
    (if String.eqb (drop_backslashes name) "" then [] else [drop_backslashes name]).
Proof. intros. split; [apply keyToPath_EscapeKey_iff|apply keyToPath_EscapeKey]. Qed.
Print Assumptions C02_escape_exactly.

Example C02_ex :
  Forall (λ n, n ≠ "" ∧ has_backslash n = false) ["a.b"; "c"; ".."] ∧
  join_dots (map EscapeKey ["a.b"; "c"; ".."]) = "a\.b.c.\.\.".
Proof. split; [repeat constructor; done|reflexivity]. Qed.

(** ** C03 *)
Theorem C03_put_then_get : ∀ h e m fp p t fpv key pr,
  ev_rep h e m fp → rep h (Some p) t fpv → NoDup (fp ++ fpv) →
  Put h e key (Some p) = Ok pr → put_err pr = None →
  Get (put_heap pr) (put_event pr) key = Ok (put_heap pr, Some p) ∧
  rep (put_heap pr) (Some p) t fpv.
Proof.
  intros h e m fp p t fpv key pr Hev Hr Hn Hput Herr.
  pose proof (put_tree h e m fp p t fpv key Hev Hr Hn) as H.
  destruct (spec_put _ _ _ _) as [[m' res]|]; [|congruence].
  destruct H as (pr' & fp' & Hput' & _ & _ & _ & _ & _ & _ & Hg).
  rewrite Hput in Hput'. injection Hput' as <-. by apply Hg.
Qed.
Print Assumptions C03_put_then_get.

(** With sharing allowed, as long as no object contains itself. *)
Theorem C03_put_then_get_shared : ∀ h e key p pr,
  closed h → ev_closed h e → acyclic h → p < length (hvals h) →
  Put h e key (Some p) = Ok pr → put_err pr = None →
  Get (put_heap pr) (put_event pr) key = Ok (put_heap pr, Some p).
Proof. intros h e key p pr Hc He Ha Hp. exact (put_get_acyclic h e key p true pr Hc He Ha Hp). Qed.
Print Assumptions C03_put_then_get_shared.

Example C03_ex :
  (∃ fp fpv, ev_rep ex_heap ex_event ex_tree fp ∧ rep ex_heap (Some ex_ptr) ex_value fpv ∧
     NoDup (fp ++ fpv)) ∧
  (∃ pr, Put ex_heap ex_event "a.new.z" (Some ex_ptr) = Ok pr ∧ put_err pr = None).
Proof. split; [exact ex_rep|]. eexists. split; [vm_compute; reflexivity|reflexivity]. Qed.

(** ** C04 *)
Theorem C04_put_frame : ∀ h e m fp p t fpv key pr,
  ev_rep h e m fp → rep h (Some p) t fpv → NoDup (fp ++ fpv) →
  Put h e key (Some p) = Ok pr → put_err pr = None →
  ∃ m' fp', ev_rep (put_heap pr) (put_event pr) m' fp' ∧
    (∀ q, disjoint_paths (spec_path key) q → tlookup q m' = tlookup q m) ∧
    (∀ sub, tlookup (spec_path key ++ sub) m' = tsub sub t) ∧
    (∀ q sub, spec_path key = q ++ sub → sub ≠ [] → ∃ mi, tlookup q m' = Some (TObj mi)) ∧
    stable h (put_heap pr) (λ l, l ∈ fp).
Proof.
  intros h e m fp p t fpv key pr Hev Hr Hn Hput Herr. rewrite <-keyToPath_spec.
  by eapply put_tree_frame.
Qed.
Print Assumptions C04_put_frame.

Example C04_ex : disjoint_paths (spec_path "a.new.z") ["a"; "x"] ∧
  tlookup ["a"; "x"] ex_tree = Some (TInt 1).
Proof. split; [|reflexivity]. split; intros [x Hx]; vm_compute in Hx; congruence. Qed.

(** Two fields sharing an object: a write through one shows through the other. *)
Theorem C04_shared_containers_refuted : ∃ h e p1 pr,
  reach h e ∧ Put h e "a.x" (Some p1) = Ok pr ∧ put_err pr = None ∧
  disjoint_paths (spec_path "a.x") (spec_path "b.x") ∧
  Get h e "b.x" = Ok (h, None) ∧
  Get (put_heap pr) (put_event pr) "b.x" = Ok (put_heap pr, Some p1).
Proof. exact shared_containers. Qed.
Print Assumptions C04_shared_containers_refuted.

(** ** C05 *)
Theorem C05_put_outcomes : ∀ h e m fp p t fpv key,
  ev_rep h e m fp → mclean m → rep h (Some p) t fpv → tclean t → NoDup (fp ++ fpv) →
  ∃ pr, Put h e key (Some p) = Ok pr ∧
    ((spec_path key = [] ∧ put_err pr = Some err_empty) ∨
     (spec_path key ≠ [] ∧ blocked (spec_path key) m ∧
        put_err pr = Some (errNotObject (spec_path key))) ∨
     (spec_path key ≠ [] ∧ ¬ blocked (spec_path key) m ∧ put_err pr = None ∧
        obs (put_heap pr) (put_old pr) (tlookup (spec_path key) m))) ∧
    (put_err pr ≠ None → put_heap pr = h ∧ put_event pr = e ∧ put_old pr = None).
Proof. intros h e m fp p t fpv key. rewrite <-keyToPath_spec. apply put_outcomes. Qed.
Print Assumptions C05_put_outcomes.

(** errors.Is on the three errors. *)
Theorem C05_error_kinds : ∀ path,
  is_sentinel SEmptyKey err_empty = true ∧
  is_sentinel STargetKeyNotObject (errNotObject path) = true ∧
  is_sentinel SKeyExists (err_exists path) = true ∧
  is_sentinel SEmptyKey (errNotObject path) = false ∧
  is_sentinel STargetKeyNotObject err_empty = false.
Proof. by intros. Qed.
Print Assumptions C05_error_kinds.

(** Putting nil, on any heap. *)
Theorem C05_put_nil : ∀ h e key,
  Put h e key None =
  Ok (mkPut h e None (if decide (spec_path key = []) then Some err_empty else None)).
Proof. intros. unfold Put. rewrite keyToPath_spec. by destruct (spec_path key). Qed.
Print Assumptions C05_put_nil.

(** With sharing and cycles: a failed Put leaves the heap identical. *)
Theorem C05_failed_put_changes_nothing : ∀ h e key v pr,
  closed h → ev_closed h e → valid_ptr h v → fields e ≠ None →
  Put h e key v = Ok pr → put_err pr ≠ None → put_heap pr = h ∧ put_event pr = e.
Proof.
  intros h e key v pr Hc He Hv Hf Hput Herr.
  destruct (put_closed h e (keyToPath key) v true Hc He Hv) as (pr' & Hp & _ & _ & _ & _ & Hs).
  unfold Put in Hput. rewrite Hput in Hp. injection Hp as <-. auto.
Qed.
Print Assumptions C05_failed_put_changes_nothing.

Example C05_ex_blocked : blocked (spec_path "b.c.d") ex_tree ∧ mclean ex_tree ∧ tclean ex_value.
Proof.
  split; [|split].
  - exists ["b"], ["c"; "d"], (TStr "s"). split; [reflexivity|]. split; [done|]. split; [done|]. split; [reflexivity|]. intros [].
  - cbn. repeat (split || constructor).
  - cbn. repeat (split || constructor).
Qed.

(** ** C06 *)
Theorem C06_tryput_existing : ∀ h e key p h' q,
  spec_path key ≠ [] → Get h e key = Ok (h', Some q) →
  TryPut h e key (Some p) = Ok (mkPut h e (Some q) (Some (err_exists (spec_path key)))) ∧
  is_sentinel SKeyExists (err_exists (spec_path key)) = true.
Proof. intros h e key p h' q. rewrite <-keyToPath_spec. intros. split; [by eapply tryput_exists|done]. Qed.
Print Assumptions C06_tryput_existing.

Theorem C06_tryput_missing : ∀ h e key v h',
  closed h → ev_closed h e → Get h e key = Ok (h', None) →
  TryPut h e key v = Put h e key v.
Proof. exact tryput_missing. Qed.
Print Assumptions C06_tryput_missing.

(** The two remaining cases: nil value, and the empty path (which Get answers
    with the root object, but TryPut rejects). *)
Theorem C06_tryput_rest : ∀ h e key v,
  (spec_path key = [] → TryPut h e key v = Ok (mkPut h e None (Some err_empty))) ∧
  (spec_path key ≠ [] → TryPut h e key None = Ok (mkPut h e None None)).
Proof.
  intros. unfold TryPut. rewrite keyToPath_spec. destruct (spec_path key); split; intros; done.
Qed.
Print Assumptions C06_tryput_rest.

Example C06_ex :
  Get ex_heap ex_event "a.x" = Ok (ex_heap, Some 0) ∧ Get ex_heap ex_event "a.y" = Ok (ex_heap, None).
Proof. split; reflexivity. Qed.

(** ** C07 *)
Theorem C07_get_is_lookup : ∀ h e m fp key,
  ev_rep h e m fp → mclean m →
  ∃ h' op, Get h e key = Ok (h', op) ∧ ev_rep h' e m fp ∧ stable h h' noW ∧
    (spec_path key ≠ [] → h' = h ∧ obs h op (tlookup (spec_path key) m)) ∧
    (spec_path key = [] → obs h' op (match m with [] => None | _ => Some (TObj m) end)).
Proof. intros h e m fp key. rewrite <-keyToPath_spec. apply get_tree. Qed.
Print Assumptions C07_get_is_lookup.

(** ** C08 *)
Theorem C08_delete_returns_and_removes : ∀ h e key,
  closed h → ev_closed h e → spec_path key ≠ [] →
  ∃ h' op, EvDelete h e key = Ok (h', op) ∧ Get h e key = Ok (h, op) ∧
    Get h' e key = Ok (h', None) ∧ (op = None → h' = h).
Proof. intros h e key. rewrite <-keyToPath_spec. apply delete_get. Qed.
Print Assumptions C08_delete_returns_and_removes.

(** Exact contents afterwards.  Full statement wanted: only the addressed field
    disappears.  Proved: the whole top-level field disappears, which is the same
    thing only for keys of one segment. *)
Theorem C08_delete_contents_partial : ∀ h e m fp key,
  ev_rep h e m fp → mclean m →
  ∃ h' op fp', EvDelete h e key = Ok (h', op) ∧
    (spec_path key = [] ∨ tlookup (spec_path key) m = None →
       op = None ∧ h' = h ∧ fp' = fp ∧ ev_rep h' e m fp') ∧
    (∀ k rest t, spec_path key = k :: rest → tlookup (spec_path key) m = Some t →
       obs h' op (Some t) ∧ ev_rep h' e (mdel k m) fp').
Proof. intros h e m fp key. rewrite <-keyToPath_spec. apply delete_tree. Qed.
Print Assumptions C08_delete_contents_partial.

(** The documented contract ("Delete removes the key") is false for nested keys. *)
Theorem C08_delete_siblings_refuted : ∃ h e h' op q,
  reach h e ∧ disjoint_paths (spec_path "a.b") (spec_path "a.c") ∧
  Get h e "a.c" = Ok (h, Some q) ∧ EvDelete h e "a.b" = Ok (h', op) ∧ op ≠ None ∧
  Get h' e "a.c" = Ok (h', None).
Proof. exact delete_siblings. Qed.
Print Assumptions C08_delete_siblings_refuted.

(** ** C09 *)
Theorem C09_no_panic : ∀ h e o, reach h e → cop_ok h o → ∃ h' e', cexec h e o = Ok (h', e').
Proof. exact reach_no_panic. Qed.
Print Assumptions C09_no_panic.

(** From any event without nil values and nil maps, not only from New(). *)
Theorem C09_no_panic_any_event : ∀ h e o,
  closed h → ev_closed h e → cop_ok h o →
  ∃ h' e', cexec h e o = Ok (h', e') ∧ closed h' ∧ ev_closed h' e'.
Proof. exact cexec_closed. Qed.
Print Assumptions C09_no_panic_any_event.

(** With nil values or nil maps inside: calls panic exactly if the key goes through one.
    [passes path m t] (Tree.v): a proper part of the path leads to [t]. *)
Theorem C09_panics_exactly : ∀ h e m fp key, ev_rep h e m fp →
  (Get h e key = Panic ↔ passes (spec_path key) m TNil) ∧
  (EvDelete h e key = Panic ↔ passes (spec_path key) m TNil) ∧
  ∀ p t fpv, rep h (Some p) t fpv → NoDup (fp ++ fpv) →
    (Put h e key (Some p) = Panic ↔ passes (spec_path key) m TNil ∨ passes (spec_path key) m TNilObj) ∧
    (TryPut h e key (Some p) = Panic ↔ passes (spec_path key) m TNil ∨ passes (spec_path key) m TNilObj).
Proof. intros h e m fp key. rewrite <-keyToPath_spec. apply panics_exactly. Qed.
Print Assumptions C09_panics_exactly.

(** A nil value inside the event (JSON null) or a nil map makes calls panic. *)
Theorem C09_nil_panics_refuted :
  (∃ h e, ev_rep h e [("a", TNil)] [LMap 0] ∧ Get h e "a.b" = Panic ∧
          ∃ p, rep h (Some p) TNull [] ∧ Put h e "a.b" (Some p) = Panic) ∧
  (∃ h e, ev_rep h e [("a", TNilObj)] [LMap 0] ∧
          ∃ p, rep h (Some p) TNull [] ∧ Put h e "a.b" (Some p) = Panic).
Proof. exact nil_panics. Qed.
Print Assumptions C09_nil_panics_refuted.

Example C09_ex_cycle : ∃ h e r, reach h e ∧ medge h r r.
Proof. exact cyclic_reachable. Qed.

(** ** C10 *)
Theorem C10_sequences_refine_nested_map : ∀ (l : list eop) h e m fp,
  ev_rep h e m fp → mclean m → Forall eop_clean l →
  ∃ m' rs h' e' outs fp',
    srun m l = Ok (m', rs) ∧ run h e l = Ok (h', e', outs) ∧
    Forall2 out_obs outs rs ∧ ev_rep h' e' m' fp' ∧ mclean m'.
Proof.
  intros l h e m fp Hev Hm Hl. destruct (srun_clean l m Hm Hl) as (m' & rs & Hs & Hm').
  assert (Forall eop_sorted l) as Hls.
  { eapply Forall_impl; [exact Hl|]. intros [] Ho; try done; by apply tclean_tsorted. }
  pose proof (run_ref l h e m fp Hev Hls) as H. rewrite Hs in H.
  destruct H as (h' & e' & outs & fp' & Hr & Ho & Hev'). eauto 12.
Qed.
Print Assumptions C10_sequences_refine_nested_map.

(** Also with nil values inside: the code panics exactly when the nested map
    specification does. *)
Theorem C10_sequences_with_nil : ∀ (l : list eop) h e m fp,
  ev_rep h e m fp → Forall eop_sorted l →
  match srun m l with
  | Panic => run h e l = Panic
  | Ok (m', rs) => ∃ h' e' outs fp', run h e l = Ok (h', e', outs) ∧ Forall2 out_obs outs rs ∧
                     ev_rep h' e' m' fp'
  end.
Proof. exact run_ref. Qed.
Print Assumptions C10_sequences_with_nil.

Example C10_ex :
  ev_rep emptyHeap newEvent [] [] ∧ mclean [] ∧
  srun [] [OPut "a.b" (TInt 1); OTryPut "a.b" (TInt 2); OPut "a.b.c" TNull;
           OPut "c" ex_value; OMove "c.y" "a.d"; OGet "a"; ODelete "a.b"] =
  Ok ([], [mkSRes None None;
           mkSRes (Some (TInt 1)) (Some (err_exists ["a"; "b"]));
           mkSRes None (Some (errNotObject ["a"; "b"; "c"]));
           mkSRes None None;
           mkSRes None None;
           mkSRes (Some (TObj [("b", TInt 1); ("d", TArr [TBool true])])) None;
           mkSRes (Some (TInt 1)) None]).
Proof. split; [done|]. split; [done|]. reflexivity. Qed.

(** ** C11 *)
Theorem C11_put_stores_the_pointer : ∀ h e m fp p t fpv key pr,
  ev_rep h e m fp → rep h (Some p) t fpv → NoDup (fp ++ fpv) →
  Put h e key (Some p) = Ok pr → put_err pr = None →
  Get (put_heap pr) (put_event pr) key = Ok (put_heap pr, Some p).
Proof. intros. by eapply (C03_put_then_get h e m fp p t fpv key pr). Qed.
Print Assumptions C11_put_stores_the_pointer.

Theorem C11_cycles_and_sharing_reachable :
  (∃ h e r, reach h e ∧ medge h r r) ∧
  (∃ h e p1 pr, reach h e ∧ Put h e "a.x" (Some p1) = Ok pr ∧ put_err pr = None ∧
     disjoint_paths (spec_path "a.x") (spec_path "b.x") ∧
     Get h e "b.x" = Ok (h, None) ∧
     Get (put_heap pr) (put_event pr) "b.x" = Ok (put_heap pr, Some p1)) ∧
  (* on a cyclic event a Put need not be read back *)
  (∃ h e p pr, reach h e ∧ Put h e "a.a" (Some p) = Ok pr ∧ put_err pr = None ∧
     Get (put_heap pr) (put_event pr) "a.a" = Ok (put_heap pr, None)).
Proof. split; [exact cyclic_reachable|]. split; [exact shared_containers|exact cyclic_put_get]. Qed.
Print Assumptions C11_cycles_and_sharing_reachable.

(** ** C48 *)
Theorem C48_type_names : ∀ a b : N,
  (a ≤ 8 → b ≤ 8 → ValueType_String a = ValueType_String b → a = b)%N ∧
  (ValueType_String a = "unknown_type" ↔ (8 < a)%N).
Proof. exact type_names. Qed.
Print Assumptions C48_type_names.
