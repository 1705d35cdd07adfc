(** * Sequences of event operations. *)
From Verif Require Export EventOps.

(** A call, with the value to store given as a tree that the caller builds
    afresh (so that it shares nothing with the event).  [OMove] is
    [if v := evt.Delete(from); v != nil { evt.Put(to, v) }]. *)
Inductive eop : Type :=
| OPut (key : string) (t : tree)
| OTryPut (key : string) (t : tree)
| OGet (key : string)
| ODelete (key : string)
| OMove (from to : string).

Record outcome : Type := mkOut {
  o_heap : heap; o_event : event; o_val : option ptr; o_err : option goerr }.

Definition of_put (o : Outcome put_result) : Outcome outcome :=
  match o with
  | Panic => Panic
  | Ok pr => Ok (mkOut (put_heap pr) (put_event pr) (put_old pr) (put_err pr))
  end.

(** The calls, run by the model of event.go. *)
Definition exec (h : heap) (e : event) (o : eop) : Outcome outcome :=
  match o with
  | OPut key t => let '(h1, op) := alloc_tree h t in of_put (Put h1 e key op)
  | OTryPut key t => let '(h1, op) := alloc_tree h t in of_put (TryPut h1 e key op)
  | OGet key =>
      match Get h e key with
      | Panic => Panic
      | Ok (h', op) => Ok (mkOut h' e op None)
      end
  | ODelete key =>
      match EvDelete h e key with
      | Panic => Panic
      | Ok (h', op) => Ok (mkOut h' e op None)
      end
  | OMove from to =>
      match EvDelete h e from with
      | Panic => Panic
      | Ok (h', None) => Ok (mkOut h' e None None)
      | Ok (h', Some p) => of_put (Put h' e to (Some p))
      end
  end.

Fixpoint run (h : heap) (e : event) (l : list eop) : Outcome (heap * event * list outcome) :=
  match l with
  | [] => Ok (h, e, [])
  | o :: l' =>
      match exec h e o with
      | Panic => Panic
      | Ok out =>
          match run (o_heap out) (o_event out) l' with
          | Panic => Panic
          | Ok (h', e', outs) => Ok (h', e', out :: outs)
          end
      end
  end.

(** The same calls on a nested map. *)
Definition sexec (m : gomap tree) (o : eop) : Outcome (gomap tree * sresult) :=
  match o with
  | OPut key t => spec_put true (keyToPath key) t m
  | OTryPut key t => spec_put false (keyToPath key) t m
  | OGet key => spec_get (keyToPath key) m
  | ODelete key => spec_delete (keyToPath key) m
  | OMove from to =>
      match spec_delete (keyToPath from) m with
      | Panic => Panic
      | Ok (m', res) =>
          match s_val res with
          | None => Ok (m', res)
          | Some t => spec_put true (keyToPath to) t m'
          end
      end
  end.

Fixpoint srun (m : gomap tree) (l : list eop) : Outcome (gomap tree * list sresult) :=
  match l with
  | [] => Ok (m, [])
  | o :: l' =>
      match sexec m o with
      | Panic => Panic
      | Ok (m', r) =>
          match srun m' l' with
          | Panic => Panic
          | Ok (m'', rs) => Ok (m'', r :: rs)
          end
      end
  end.

Definition eop_sorted (o : eop) : Prop :=
  match o with OPut _ t | OTryPut _ t => tsorted t | _ => True end.
Definition eop_clean (o : eop) : Prop :=
  match o with OPut _ t | OTryPut _ t => tclean t | _ => True end.

(** One observed outcome: the returned pointer, read in the heap at that
    moment, shows the specified tree; the error is the specified one. *)
Definition out_obs (out : outcome) (r : sresult) : Prop :=
  obs (o_heap out) (o_val out) (s_val r) ∧ o_err out = s_err r.

Lemma put_nil_ref h e m fp path ow :
  ev_rep h e m fp →
  ∃ m' res, spec_put ow path TNil m = Ok (m', res) ∧
    put h e path None ow = Ok (mkPut h e None (s_err res)) ∧ m' = m ∧ s_val res = None.
Proof. intros Hev. unfold spec_put, put. destruct path; eauto 10. Qed.

Lemma put_fresh_ref h e m fp t h1 op path ow :
  ev_rep h e m fp → tsorted t → alloc_tree h t = (h1, op) →
  match spec_put ow path t m with
  | Panic => put h1 e path op ow = Panic
  | Ok (m', res) =>
      ∃ pr fp', put h1 e path op ow = Ok pr ∧ put_err pr = s_err res ∧
        obs (put_heap pr) (put_old pr) (s_val res) ∧
        ev_rep (put_heap pr) (put_event pr) m' fp' 
  end.
Proof.
  intros Hev Hts Hal. destruct (alloc_tree_rep _ _ _ _ Hts Hal) as (Hst & fpv & Hr & Hnd & Hfr).
  assert (ev_rep h1 e m fp) as Hev1 by (eapply ev_rep_frame; [done|done|]; auto).
  destruct op as [p|].
  - assert (NoDup (fp ++ fpv)) as Hnd'.
    { apply NoDup_app. split_and!; [by eapply ev_rep_NoDup| |done]. intros l H1 H2.
      eapply not_fresh_allocated; [by eapply (ev_rep_alloc h)|]. by apply Hfr. }
    pose proof (put_ref h1 e m fp p t fpv path ow Hev1 Hr Hnd') as H.
    destruct (spec_put ow path t m) as [[m' res]|]; [|done].
    destruct H as (pr & fp' & ? & ? & ? & ? & _). eauto 10.
  - apply rep_None in Hr as ->.
    destruct (put_nil_ref h1 e m fp path ow Hev1) as (m' & res & -> & -> & -> & Hv).
    eexists _, fp. split; [done|]. simpl. split_and!; try done. by rewrite Hv.
Qed.

Lemma exec_ref h e m fp o :
  ev_rep h e m fp → eop_sorted o →
  match sexec m o with
  | Panic => exec h e o = Panic
  | Ok (m', r) => ∃ out fp', exec h e o = Ok out ∧ out_obs out r ∧
                    ev_rep (o_heap out) (o_event out) m' fp'
  end.
Proof.
  intros Hev Hs. destruct o as [key t|key t|key|key|from to]; cbn [sexec exec].
  - destruct (alloc_tree h t) as [h1 op] eqn:Hal.
    pose proof (put_fresh_ref h e m fp t h1 op (keyToPath key) true Hev Hs Hal) as H.
    unfold Put. destruct (spec_put _ _ _ _) as [[m' res]|]; [|by rewrite H].
    destruct H as (pr & fp' & -> & He & Hob & Hev'). eexists _, fp'. split; [done|].
    by split.
  - destruct (alloc_tree h t) as [h1 op] eqn:Hal.
    pose proof (put_fresh_ref h e m fp t h1 op (keyToPath key) false Hev Hs Hal) as H.
    unfold TryPut. destruct (spec_put _ _ _ _) as [[m' res]|]; [|by rewrite H].
    destruct H as (pr & fp' & -> & He & Hob & Hev'). eexists _, fp'. split; [done|].
    by split.
  - unfold Get, spec_get. pose proof (get_path_ref (keyToPath key) h e m fp Hev) as H.
    destruct (tget (keyToPath key) m) as [[t|]|].
    + destruct H as (h' & p & fpt & -> & Hr & _ & Hst & _). eexists _, fp. split; [done|].
      split; [split; [|done]; by exists p, fpt|]. eapply ev_rep_frame; [done|done|]. auto.
    + rewrite H. by eexists _, fp.
    + by rewrite H.
  - unfold EvDelete. pose proof (delete_ref h e m fp (keyToPath key) Hev) as H.
    destruct (spec_delete _ m) as [[m' res]|]; [|by rewrite H].
    destruct H as (h' & op & fp' & -> & He & Hev' & Hst & Hv).
    eexists _, fp'. split; [done|]. split; [split; [|done]|done]. simpl.
    destruct (s_val res) as [t|]; [|by destruct Hv as (-> & _)].
    destruct Hv as (p & fpt & -> & ? & _). by exists p, fpt.
  - unfold EvDelete. pose proof (delete_ref h e m fp (keyToPath from) Hev) as H.
    destruct (spec_delete _ m) as [[m1 res]|]; [|by rewrite H].
    destruct H as (h' & op & fp' & -> & He & Hev' & Hst & Hv).
    destruct (s_val res) as [t|] eqn:Hres.
    + destruct Hv as (p & fpt & -> & Hr & Hnd & _).
      pose proof (put_ref h' e m1 fp' p t fpt (keyToPath to) true Hev' Hr Hnd) as H.
      unfold Put. destruct (spec_put _ _ _ _) as [[m2 res2]|]; [|by rewrite H].
      destruct H as (pr & fp2 & -> & He2 & Hob & Hev2 & _). eexists _, fp2. split; [done|].
      by split.
    + destruct Hv as (-> & -> & ->). eexists _, fp. split; [done|]. split; [|done]. split; [|done].
      by rewrite Hres.
Qed.

Lemma run_ref l h e m fp :
  ev_rep h e m fp → Forall eop_sorted l →
  match srun m l with
  | Panic => run h e l = Panic
  | Ok (m', rs) => ∃ h' e' outs fp', run h e l = Ok (h', e', outs) ∧ Forall2 out_obs outs rs ∧
                     ev_rep h' e' m' fp'
  end.
Proof.
  revert h e m fp. induction l as [|o l IH]; intros h e m fp Hev Hs; cbn [srun run].
  { exists h, e, [], fp. auto. }
  inversion Hs as [|? ? Hs1 Hs2]; subst.
  pose proof (exec_ref h e m fp o Hev Hs1) as H.
  destruct (sexec m o) as [[m1 r]|]; [|by rewrite H].
  destruct H as (out & fp1 & -> & Ho & Hev1).
  specialize (IH _ _ _ _ Hev1 Hs2).
  destruct (srun m1 l) as [[m2 rs]|]; [|by rewrite IH].
  destruct IH as (h' & e' & outs & fp' & -> & Hos & Hev'). eexists _, _, _, fp'. split; [done|]. auto.
Qed.

(** On clean maps nothing panics and cleanness is kept. *)
Lemma tget_clean_ok path m : mclean m → ∃ o, tget path m = Ok o ∧ ∀ t, o = Some t → tclean t.
Proof.
  intros Hm. destruct path as [|k path].
  - cbn [tget]. destruct m; [eexists; split; [done|]; naive_solver|].
    eexists. split; [done|]. intros t [= <-]. exact Hm.
  - rewrite tget_clean by done. eexists. split; [done|]. intros t Ht. by eapply tlookup_clean.
Qed.

Lemma spec_put_clean ow path t m :
  mclean m → tclean t → ∃ m' r, spec_put ow path t m = Ok (m', r) ∧ mclean m' ∧
    ∀ v, s_val r = Some v → tclean v.
Proof.
  intros Hm Ht. unfold spec_put. destruct path as [|k path]; [by do 2 eexists|].
  assert (t ≠ TNil) as Hnn by (by apply tclean_not_nil).
  assert (∀ A (x y : A), match t with TNil => x | _ => y end = y) as -> by (by intros; destruct t).
  destruct (tget_clean_ok (k :: path) m Hm) as (o & -> & Ho).
  case_match. { do 2 eexists. split; [done|]. split; [done|]. simpl. naive_solver. }
  destruct (tput_clean (k :: path) t m Hm Ht) as (o' & -> & Ho').
  destruct o' as [m'|]; do 2 eexists; (split; [done|]); split; simpl; try done; naive_solver.
Qed.

Lemma spec_delete_clean path m :
  mclean m → ∃ m' r, spec_delete path m = Ok (m', r) ∧ mclean m' ∧
    ∀ v, s_val r = Some v → tclean v.
Proof.
  intros Hm. unfold spec_delete. destruct path as [|k path]; [by do 2 eexists|].
  destruct (tget_clean_ok (k :: path) m Hm) as ([t|] & -> & Ho); do 2 eexists; (split; [done|]).
  - split; [by apply mclean_mdel|]. simpl. naive_solver.
  - done.
Qed.

Lemma sexec_clean m o : mclean m → eop_clean o →
  ∃ m' r, sexec m o = Ok (m', r) ∧ mclean m' ∧ ∀ v, s_val r = Some v → tclean v.
Proof.
  intros Hm Ho. destruct o as [key t|key t|key|key|from to]; cbn [sexec].
  - by apply spec_put_clean.
  - by apply spec_put_clean.
  - unfold spec_get. destruct (tget_clean_ok (keyToPath key) m Hm) as (o & -> & Ho'). eauto 10.
  - by apply spec_delete_clean.
  - destruct (spec_delete_clean (keyToPath from) m Hm) as (m1 & r & -> & Hm1 & Hr).
    destruct (s_val r) as [t|] eqn:E; [|eauto 10].
    + apply spec_put_clean; auto.
    + do 2 eexists. split; [done|]. split; [done|]. by rewrite E.
Qed.

Lemma srun_clean l m : mclean m → Forall eop_clean l →
  ∃ m' rs, srun m l = Ok (m', rs) ∧ mclean m'.
Proof.
  revert m. induction l as [|o l IH]; intros m Hm Hl; cbn [srun]; [eauto|].
  inversion Hl; subst. destruct (sexec_clean m o) as (m1 & r & -> & Hm1 & _); try done.
  destruct (IH m1) as (m2 & rs & -> & ?); try done. eauto.
Qed.
