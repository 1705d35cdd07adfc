(** * Consequences of the refinement lemmas, used by EventProps.v. *)
From Verif Require Export EventSeq EventShared.

Lemma put_tree h e m fp p t fpv key :
  ev_rep h e m fp → rep h (Some p) t fpv → NoDup (fp ++ fpv) →
  match spec_put true (keyToPath key) t m with
  | Panic => Put h e key (Some p) = Panic
  | Ok (m', res) =>
      ∃ pr fp', Put h e key (Some p) = Ok pr ∧ put_err pr = s_err res ∧
        obs (put_heap pr) (put_old pr) (s_val res) ∧
        ev_rep (put_heap pr) (put_event pr) m' fp' ∧
        stable h (put_heap pr) (λ l, l ∈ fp) ∧
        (∀ l, l ∈ fp' → l ∈ fp ∨ l ∈ fpv ∨ fresh h l) ∧
        (put_err pr ≠ None → put_heap pr = h ∧ put_event pr = e) ∧
        (put_err pr = None →
           Get (put_heap pr) (put_event pr) key = Ok (put_heap pr, Some p) ∧
           rep (put_heap pr) (Some p) t fpv)
  end.
Proof. intros Hev Hr Hn. exact (put_ref h e m fp p t fpv (keyToPath key) true Hev Hr Hn). Qed.


Lemma spec_put_eq ow k path t m :
  t ≠ TNil →
  spec_put ow (k :: path) t m =
  match tget (k :: path) m with
  | Panic => Panic
  | Ok old =>
      if (match old with Some _ => true | None => false end) && negb ow
      then Ok (m, mkSRes old (Some (err_exists (k :: path))))
      else
        match tput (k :: path) t m with
        | Panic => Panic
        | Ok None => Ok (m, mkSRes None (Some (errNotObject (k :: path))))
        | Ok (Some m') => Ok (m', mkSRes old None)
        end
  end.
Proof. intros Hn. unfold spec_put. by destruct t. Qed.

Lemma put_tree_frame h e m fp p t fpv key pr :
  ev_rep h e m fp → rep h (Some p) t fpv → NoDup (fp ++ fpv) →
  Put h e key (Some p) = Ok pr → put_err pr = None →
  ∃ m' fp', ev_rep (put_heap pr) (put_event pr) m' fp' ∧
    (∀ q, disjoint_paths (keyToPath key) q → tlookup q m' = tlookup q m) ∧
    (∀ sub, tlookup (keyToPath key ++ sub) m' = tsub sub t) ∧
    (∀ q sub, keyToPath key = q ++ sub → sub ≠ [] → ∃ mi, tlookup q m' = Some (TObj mi)) ∧
    stable h (put_heap pr) (λ l, l ∈ fp).
Proof.
  intros Hev Hr Hn Hput Herr.
  pose proof (put_tree h e m fp p t fpv key Hev Hr Hn) as H.
  assert (t ≠ TNil) as Hnn by (by eapply rep_Some).
  destruct (keyToPath key) as [|k path] eqn:Ek.
  { destruct H as (pr' & fp' & Hput' & He & _). rewrite Hput in Hput'. injection Hput' as <-.
    by rewrite Herr in He. }
  rewrite spec_put_eq in H by done.
  destruct (tget (k :: path) m) as [old|]; [|congruence]. rewrite andb_false_r in H.
  destruct (tput (k :: path) t m) as [[m'|]|] eqn:Etp; [| |congruence].
  - destruct H as (pr' & fp' & Hput' & _ & _ & Hev' & Hst & _).
    rewrite Hput in Hput'. injection Hput' as <-.
    exists m', fp'. split; [done|]. split_and!; try done.
    + intros q. by eapply tput_frame.
    + intros sub. by eapply tput_lookup_below.
    + intros q sub Hq Hs. by eapply tput_prefix.
  - destruct H as (pr' & fp' & Hput' & He & _). rewrite Hput in Hput'. injection Hput' as <-.
    by rewrite Herr in He.
Qed.

(** A proper prefix of the path exists and is not an object. *)
Definition blocked (path : list string) (m : gomap tree) : Prop :=
  ∃ q sub t, path = q ++ sub ∧ q ≠ [] ∧ sub ≠ [] ∧ tlookup q m = Some t ∧ ¬ is_object t.

Lemma put_outcomes h e m fp p t fpv key :
  ev_rep h e m fp → mclean m → rep h (Some p) t fpv → tclean t → NoDup (fp ++ fpv) →
  ∃ pr, Put h e key (Some p) = Ok pr ∧
    ((keyToPath key = [] ∧ put_err pr = Some err_empty) ∨
     (keyToPath key ≠ [] ∧ blocked (keyToPath key) m ∧
        put_err pr = Some (errNotObject (keyToPath key))) ∨
     (keyToPath key ≠ [] ∧ ¬ blocked (keyToPath key) m ∧ put_err pr = None ∧
        obs (put_heap pr) (put_old pr) (tlookup (keyToPath key) m))) ∧
    (put_err pr ≠ None → put_heap pr = h ∧ put_event pr = e ∧ put_old pr = None).
Proof.
  intros Hev Hm Hr Ht Hn.
  pose proof (put_tree h e m fp p t fpv key Hev Hr Hn) as H.
  destruct (keyToPath key) as [|k path] eqn:Ek.
  { destruct H as (pr & fp' & Hput & He & Hob & _ & _ & _ & Hs & _). exists pr. split; [done|].
    split; [left; by rewrite He|]. intros Hne. destruct (Hs Hne) as [? ?]. done. }
  rewrite spec_put_eq in H by (by apply tclean_not_nil).
  rewrite tget_clean in H by done. rewrite andb_false_r in H.
  destruct (tput_clean (k :: path) t m Hm Ht) as (o & Eo & _). rewrite Eo in H.
  pose proof (tput_refused (k :: path) t m Hm ltac:(done)) as Href.
  destruct o as [m'|];
    destruct H as (pr & fp' & Hput & He & Hob & _ & _ & _ & Hs & _); exists pr; (split; [done|]).
  - split; [|by rewrite He]. right; right. split_and!; try done.
    intros Hb. rewrite (proj2 Href Hb) in Eo. done.
  - split; [right; left; split_and!; try done; by apply Href|].
    intros Hne. destruct (Hs Hne) as [? ?]. done.
Qed.

Lemma get_tree h e m fp key :
  ev_rep h e m fp → mclean m →
  ∃ h' op, Get h e key = Ok (h', op) ∧ ev_rep h' e m fp ∧ stable h h' noW ∧
    (keyToPath key ≠ [] → h' = h ∧ obs h op (tlookup (keyToPath key) m)) ∧
    (keyToPath key = [] → obs h' op (match m with [] => None | _ => Some (TObj m) end)).
Proof.
  intros Hev Hm. unfold Get. pose proof (get_path_ref (keyToPath key) h e m fp Hev) as H.
  destruct (keyToPath key) as [|k path] eqn:Ek.
  - cbn [tget] in H. destruct m as [|e0 m].
    + rewrite H. do 2 eexists. split; [done|]. split; [done|]. split; [apply stable_refl|done].
    + destruct H as (h' & p & fpt & -> & Hr & _ & Hst & _). do 2 eexists. split; [done|].
      split_and!; try done.
      * eapply ev_rep_frame; [done|done|]. auto.
      * intros _. by exists p, fpt.
  - rewrite tget_clean in H by done. destruct (tlookup (k :: path) m) as [t|].
    + destruct H as (h' & p & fpt & -> & Hr & _ & Hst & Hh & _). rewrite Hh in * by done.
      do 2 eexists. split; [done|]. split_and!; try done. intros _. split; [done|]. by exists p, fpt.
    + rewrite H. do 2 eexists. split; [done|]. split_and!; try done. apply stable_refl.
Qed.

Lemma delete_tree h e m fp key :
  ev_rep h e m fp → mclean m →
  ∃ h' op fp', EvDelete h e key = Ok (h', op) ∧
    (keyToPath key = [] ∨ tlookup (keyToPath key) m = None → op = None ∧ h' = h ∧ fp' = fp ∧ ev_rep h' e m fp') ∧
    (∀ k rest t, keyToPath key = k :: rest → tlookup (keyToPath key) m = Some t →
       obs h' op (Some t) ∧ ev_rep h' e (mdel k m) fp').
Proof.
  intros Hev Hm. unfold EvDelete. pose proof (delete_ref h e m fp (keyToPath key) Hev) as H.
  unfold spec_delete in H. destruct (keyToPath key) as [|k path] eqn:Ek.
  { destruct H as (h' & op & fp' & -> & _ & Hev' & _ & -> & -> & ->). exists h, None, fp.
    split; [done|]. split; [done|]. by intros. }
  rewrite tget_clean in H by done. destruct (tlookup (k :: path) m) as [t|].
  - destruct H as (h' & op & fp' & -> & _ & Hev' & _ & p & fpt & -> & Hr & _).
    exists h', (Some p), fp'. split; [done|]. split; [by intros [?|?]|].
    intros k' rest t' [= <- <-] [= <-]. split; [by exists p, fpt|done].
  - destruct H as (h' & op & fp' & -> & _ & Hev' & _ & -> & -> & ->).
    exists h, None, fp. split; [done|]. split; [done|]. by intros.
Qed.

(** ** A concrete state *)
(** An event {a: {x: 1}, b: "s"} and a separate value {y: [true]}. *)
Definition ex_tree : gomap tree :=
  [("a", TObj [("x", TInt 1)]); ("b", TStr "s")].
Definition ex_value : tree := TObj [("y", TArr [TBool true])].
Definition ex_heap1 : heap := (alloc_tree emptyHeap (TObj ex_tree)).1.
Definition ex_event : event := mkEvent (Some 1).
Definition ex_heap : heap := (alloc_tree ex_heap1 ex_value).1.
Definition ex_ptr : ptr := 6.

Lemma ex_rep : ∃ fp fpv, ev_rep ex_heap ex_event ex_tree fp ∧
  rep ex_heap (Some ex_ptr) ex_value fpv ∧ NoDup (fp ++ fpv).
Proof.
  exists [LMap 1; LMap 0], [LMap 2; LArr 5]. split; [|split].
  - exists [("a", Some 1); ("b", Some 2)], [LMap 0]. split_and!; [done|by repeat constructor| |done|].
    + apply (rep_assoc_cons _ _ _ _ _ _ [LMap 0] []).
      * eapply (rep_obj _ _ _ 0 [("x", Some 0)] _ []); [done|done|done|done|by repeat constructor|].
        apply (rep_assoc_cons _ _ _ _ _ _ [] []); [|constructor].
        eapply rep_scalar; done.
      * apply (rep_assoc_cons _ _ _ _ _ _ [] []); [|constructor]. eapply rep_scalar; done.
    + repeat (apply NoDup_cons; split; [set_solver|]); constructor.
  - eapply (rep_obj _ _ _ 2 [("y", Some 5)] _ [LArr 5]); [done|done|done|done|by repeat constructor|].
    apply (rep_assoc_cons _ _ _ _ _ _ [LArr 5] []); [|constructor].
    eapply (rep_arr _ _ _ [Some 4] _ []); [done|done|done|done|].
    apply (rep_list_cons _ _ _ _ _ [] []); [|constructor]. eapply rep_scalar; done.
  - repeat (apply NoDup_cons; split; [set_solver|]); constructor.
Qed.


(** ** Histories through the public calls *)
Fixpoint chist (h : heap) (e : event) (l : list cop) : Outcome (heap * event) :=
  match l with
  | [] => Ok (h, e)
  | o :: l' => match cexec h e o with Ok (h', e') => chist h' e' l' | Panic => Panic end
  end.

Fixpoint hist_ok (h : heap) (e : event) (l : list cop) : Prop :=
  match l with
  | [] => True
  | o :: l' => cop_ok h o ∧
               match cexec h e o with Ok (h', e') => hist_ok h' e' l' | Panic => True end
  end.

Lemma chist_reach l h e h' e' :
  reach h e → hist_ok h e l → chist h e l = Ok (h', e') → reach h' e'.
Proof.
  revert h e. induction l as [|o l IH]; intros h e Hr Hok Hh; simpl in *.
  - by simplify_eq.
  - destruct Hok as [Ho Hok]. destruct (cexec h e o) as [[h1 e1]|] eqn:E; [|done].
    eapply IH; [|done|done]. by eapply reach_step.
Qed.

Ltac hist_tac :=
  vm_compute; repeat match goal with
  | |- _ ∧ _ => split
  | |- True => exact I
  | |- ∀ _, _ => intro
  | H : Some _ = Some _ |- _ => injection H as <-
  | H : None = Some _ |- _ => discriminate H
  | H : _ = _ |- False => discriminate H
  end; try lia.

(** o := Object({}); Put("a", o); Put("b", o); one := Integer(1). *)
Definition hist_shared : list cop :=
  [CNewMap []; CNewValue (mkObject (Some 0)); CPut "a" (Some 0); CPut "b" (Some 0);
   CNewValue (mkInteger 1)].

Lemma shared_containers : ∃ h e p1 pr,
  reach h e ∧ Put h e "a.x" (Some p1) = Ok pr ∧ put_err pr = None ∧
  disjoint_paths (spec_path "a.x") (spec_path "b.x") ∧
  Get h e "b.x" = Ok (h, None) ∧
  Get (put_heap pr) (put_event pr) "b.x" = Ok (put_heap pr, Some p1).
Proof.
  eexists _, _, 1, _. split.
  { apply (chist_reach hist_shared emptyHeap newEvent); [apply reach_init|hist_tac|].
    vm_compute. reflexivity. }
  split; [vm_compute; reflexivity|]. split; [reflexivity|].
  split; [split; intros [x Hx]; vm_compute in Hx; congruence|].
  split; vm_compute; reflexivity.
Qed.

Lemma delete_siblings : ∃ h e h' op q,
  reach h e ∧ disjoint_paths (spec_path "a.b") (spec_path "a.c") ∧
  Get h e "a.c" = Ok (h, Some q) ∧ EvDelete h e "a.b" = Ok (h', op) ∧ op ≠ None ∧
  Get h' e "a.c" = Ok (h', None).
Proof.
  eexists _, _, _, _, _. split.
  { apply (chist_reach [CNewValue (mkInteger 1); CPut "a.b" (Some 0); CPut "a.c" (Some 0)]
             emptyHeap newEvent); [apply reach_init|hist_tac|].
    vm_compute. reflexivity. }
  split; [split; intros [x Hx]; vm_compute in Hx; congruence|].
  split; [vm_compute; reflexivity|]. split; [vm_compute; reflexivity|]. split; [done|].
  vm_compute. reflexivity.
Qed.

(** Put("x", 1); Put("a", Get("")). *)
Definition hist_cycle : list cop :=
  [CNewValue (mkInteger 1); CPut "x" (Some 0); CGet ""; CPut "a" (Some 1)].

Lemma cyclic_reachable : ∃ h e r, reach h e ∧ medge h r r.
Proof.
  eexists _, _, 0. split.
  { apply (chist_reach hist_cycle emptyHeap newEvent); [apply reach_init|hist_tac|].
    vm_compute. reflexivity. }
  eexists _, "a", 1, _. split; [reflexivity|]. split; [reflexivity|]. split; reflexivity.
Qed.

Lemma cyclic_put_get : ∃ h e p pr,
  reach h e ∧ Put h e "a.a" (Some p) = Ok pr ∧ put_err pr = None ∧
  Get (put_heap pr) (put_event pr) "a.a" = Ok (put_heap pr, None).
Proof.
  eexists _, _, 0, _. split.
  { apply (chist_reach hist_cycle emptyHeap newEvent); [apply reach_init|hist_tac|].
    vm_compute. reflexivity. }
  split; [vm_compute; reflexivity|]. split; [reflexivity|]. vm_compute. reflexivity.
Qed.

Lemma nil_panics :
  (∃ h e, ev_rep h e [("a", TNil)] [LMap 0] ∧ Get h e "a.b" = Panic ∧
          ∃ p, rep h (Some p) TNull [] ∧ Put h e "a.b" (Some p) = Panic) ∧
  (∃ h e, ev_rep h e [("a", TNilObj)] [LMap 0] ∧
          ∃ p, rep h (Some p) TNull [] ∧ Put h e "a.b" (Some p) = Panic).
Proof.
  split.
  - exists (mkHeap [mkNull] [[("a", None)]]), (mkEvent (Some 0)). split.
    { exists [("a", None)], []. split_and!; [done|by repeat constructor| |done|apply NoDup_singleton].
      apply (rep_assoc_cons _ _ _ _ _ _ [] []); constructor. }
    split; [reflexivity|]. exists 0. split; [eapply rep_scalar; done|reflexivity].
  - exists (mkHeap [mkNull; mkObject None] [[("a", Some 1)]]), (mkEvent (Some 0)). split.
    { exists [("a", Some 1)], []. split_and!; [done|by repeat constructor| |done|apply NoDup_singleton].
      apply (rep_assoc_cons _ _ _ _ _ _ [] []); [|constructor]. eapply rep_nilobj; done. }
    exists 0. split; [eapply rep_scalar; done|reflexivity].
Qed.

Lemma type_names (a b : N) :
  (a ≤ 8 → b ≤ 8 → ValueType_String a = ValueType_String b → a = b)%N ∧
  (ValueType_String a = "unknown_type" ↔ (8 < a)%N).
Proof.
  assert (∀ x : N, (x ≤ 8)%N → x ∈ [0;1;2;3;4;5;6;7;8]%N) as Hin.
  { intros x Hx. repeat rewrite elem_of_cons. lia. }
  split.
  - intros Ha Hb. apply Hin in Ha, Hb. repeat rewrite elem_of_cons in Ha, Hb.
    rewrite elem_of_nil in Ha, Hb.
    destruct Ha as [->|[->|[->|[->|[->|[->|[->|[->|[->|[]]]]]]]]]];
    destruct Hb as [->|[->|[->|[->|[->|[->|[->|[->|[->|[]]]]]]]]]]; vm_compute; congruence.
  - split.
    + intros H. destruct (N.le_gt_cases a 8) as [Ha|Ha]; [|done]. apply Hin in Ha.
      repeat rewrite elem_of_cons in Ha. rewrite elem_of_nil in Ha.
      destruct Ha as [->|[->|[->|[->|[->|[->|[->|[->|[->|[]]]]]]]]]]; done.
    + intros Ha. unfold ValueType_String. cbn [assocN valueTypeNames].
      repeat match goal with |- context [N.eqb ?x ?y] =>
        replace (N.eqb x y) with false by (symmetry; apply N.eqb_neq; vm_compute in *; intros ->; done) end.
      done.
Qed.

(** ** Panics *)
Lemma panics_exactly h e m fp key : ev_rep h e m fp →
  (Get h e key = Panic ↔ passes (keyToPath key) m TNil) ∧
  (EvDelete h e key = Panic ↔ passes (keyToPath key) m TNil) ∧
  ∀ p t fpv, rep h (Some p) t fpv → NoDup (fp ++ fpv) →
    (Put h e key (Some p) = Panic ↔ passes (keyToPath key) m TNil ∨ passes (keyToPath key) m TNilObj) ∧
    (TryPut h e key (Some p) = Panic ↔ passes (keyToPath key) m TNil ∨ passes (keyToPath key) m TNilObj).
Proof.
  intros Hev. unfold Get, EvDelete, Put, TryPut. set (path := keyToPath key). split_and!.
  - rewrite <- tget_panics. pose proof (get_path_ref path h e m fp Hev) as H. destruct (tget path m) as [[t|]|]; [|by rewrite H|by rewrite H].
    destruct H as (h' & p & fpt & -> & _). done.
  - rewrite <- tget_panics. pose proof (delete_ref h e m fp path Hev) as H. unfold spec_delete in H. destruct path as [|k path].
    + destruct H as (? & ? & ? & -> & _). done.
    + destruct (tget (k :: path) m) as [[t|]|]; [| |by rewrite H]; destruct H as (? & ? & ? & -> & _); done.
  - intros p t fpv Hr Hnd.
    assert (∀ ow, spec_put ow path t m = Panic ↔ passes path m TNil ∨ passes path m TNilObj) as Hs.
    { intros ow. assert (t ≠ TNil) as Ht by (by eapply rep_Some).
      assert (path ≠ [] → spec_put ow path t m = match tget path m with
        | Panic => Panic
        | Ok old => if (match old with Some _ => true | None => false end) && negb ow then Ok (m, mkSRes old (Some (err_exists path)))
                    else match tput path t m with
                         | Panic => Panic
                         | Ok None => Ok (m, mkSRes None (Some (errNotObject path)))
                         | Ok (Some m') => Ok (m', mkSRes old None)
                         end
        end) as E.
      { intros Hp. unfold spec_put. destruct path; [done|]. by destruct t. }
      destruct path as [|k rest] eqn:Ep.
      { split; [done|]. intros [H|H]; (apply passes_short in H; [done|simpl; lia]). }
      rewrite E by done. rewrite <- Ep. clear E. rewrite <- tput_panics with (tv := t). destruct (tget path m) as [old|] eqn:Eg.
      - destruct old as [x|], ow; cbn [andb negb].
        2: { split; [done|]. intros H. apply tput_panics in H as [H|H]; destruct (tget_some_passes _ _ _ _ Eg H) as [H1 H2]; congruence. }
        all: by destruct (tput path t m) as [[]|].
      - split; [|done]. intros _. apply tput_panics. left. by apply tget_panics. }
    split.
    + rewrite <- (Hs true). pose proof (put_ref h e m fp p t fpv path true Hev Hr Hnd) as H.
      destruct (spec_put true path t m) as [[m' res]|]; [destruct H as (? & ? & -> & _); done|by rewrite H].
    + rewrite <- (Hs false). pose proof (put_ref h e m fp p t fpv path false Hev Hr Hnd) as H.
      destruct (spec_put false path t m) as [[m' res]|]; [destruct H as (? & ? & -> & _); done|by rewrite H].
Qed.
