(** * What each processor does to the event: the lemmas behind ProcProps.v. *)
From Verif Require Export ProcFacts.

Lemma put_err_unchanged path t m m' err : put_outcome path t m m' err → err ≠ None → m' = m.
Proof. intros [(_ & _ & ->)|[(_ & _ & _ & ->)|(_ & _ & -> & _)]]; done. Qed.

Lemma put_outcome_clean path t m m' err : mclean m → put_outcome path t m m' err → mclean m'.
Proof. intros Hm [(_ & _ & ->)|[(_ & _ & _ & ->)|(_ & _ & -> & _ & ?)]]; done. Qed.

(** Storing a fresh scalar. *)
Lemma put_scalar w pe i e m fp v t key (k : option ptr → option goerr → prog (option goerr)) :
  pe_data pe = Some i → w_events w !! i = Some e → ev_rep (w_heap w) e m fp → mclean m →
  scalar_tree v = Some t → (∀ o err, k o err = Ret err) →
  ∃ w' m' err, run_prog (PNew v (λ p, PPut key (Some p) k)) w pe = Ok (w', pe, err) ∧
    leaves w w' i fp m' ∧ put_outcome (keyToPath key) t m m' err.
Proof.
  intros Hpe Hi Hev Hm Hs Hk. cbn [run_prog].
  destruct (alloc_val (w_heap w) v) as [h1 p] eqn:Ea.
  assert (stable (w_heap w) h1 (λ l, l ∈ fp)) as Hst1.
  { pose proof (stable_alloc_val (w_heap w) v (λ l, l ∈ fp)) as H. by rewrite Ea in H. }
  assert (ev_rep h1 e m fp) as Hev1.
  { eapply (ev_rep_frame _ h1 e m fp noW); [done| |auto].
    pose proof (stable_alloc_val (w_heap w) v noW) as H. by rewrite Ea in H. }
  assert (rep h1 (Some p) t []) as Hr.
  { eapply (alloc_scalar_rep (w_heap w) v); [|done]. unfold alloc_some. by rewrite Ea. }
  assert (evt_of (set_heap w h1) pe = Some (i, e)) as Hevt by (by apply evt_of_eq).
  rewrite Hevt. simpl w_heap.
  destruct (put_disjoint h1 e m fp p t [] key) as (pr & m' & fp' & Hput & Hev' & Ho & _ & Hst & _);
    [done|done|done| |rewrite app_nil_r; by eapply ev_rep_NoDup|].
  { apply scalar_tree_scalar in Hs. by destruct t. }
  rewrite Hput, Hk. eexists _, m', _. split; [reflexivity|]. split; [|done].
  split_and!; try done; simpl.
  - exists (put_event pr), fp'. split; [|done].
    rewrite list_lookup_insert; [done|]. by eapply lookup_lt_Some.
  - by eapply stable_trans.
  - intros j Hj. by rewrite list_lookup_insert_ne.
Qed.

(** lowercase, uppercase *)
Lemma case_run msg f c w pe i m fp :
  runs_on w pe i m fp → mclean m →
  ∃ w' m' err, run_prog (case_process msg f c) w pe = Ok (w', pe, err) ∧
    leaves w w' i fp m' ∧ mclean m' ∧ (err ≠ None → m' = m) ∧
    match field_value (keyToPath (cs_field c)) m with
    | None => err = Some (EKeyMissing (cs_field c)) ∧ m' = m
    | Some (TStr s) =>
        put_outcome (keyToPath (if String.eqb (cs_target c) "" then cs_field c else cs_target c))
                    (TStr (f s)) m m' err
    | Some _ => err = Some (EMsg msg) ∧ m' = m
    end.
Proof.
  intros [Hpe (e & Hi & Hev)] Hm. unfold case_process. cbn [run_prog].
  rewrite (evt_of_eq w pe i e Hpe Hi).
  destruct (get_field (w_heap w) e m fp (cs_field c) Hev Hm) as (h' & op & Hg & Hev' & Hst & Hne & Ho).
  rewrite Hg.
  assert (leaves w (set_heap w h') i fp m) as Hl.
  { split; [exists e, fp; done|]. split; [|done]. eapply stable_weaken; [exact Hst|done]. }
  destruct (field_value (keyToPath (cs_field c)) m) as [t|]; simpl in Ho.
  2:{ subst op. simpl. eexists _, m, _. split; [reflexivity|]. done. }
  destruct Ho as (p & fpt & -> & Hp). destruct (rep_deref _ _ _ _ Hp) as [v Hv].
  cbn [run_prog deref]. unfold set_heap at 1. cbn [w_heap]. rewrite Hv.
  destruct (rep_type_string h' p t fpt v Hp Hv) as [[Hty ->]|[Hty Hns]].
  - rewrite Hty, N.eqb_refl. cbn [negb].
    destruct (put_scalar (set_heap w h') pe i e m fp (mkString (f (v_str v))) (TStr (f (v_str v)))
                (if String.eqb (cs_target c) "" then cs_field c else cs_target c) (λ _ err, Ret err))
      as (w' & m' & err & Hrun & Hlv & Ho); try done.
    rewrite Hrun. exists w', m', err. split; [done|].
    split.
    { destruct Hlv as (L1 & L2 & L3 & L4 & L5). split_and!; try done.
      eapply stable_trans; [|exact L2]. eapply stable_weaken; [exact Hst|done]. }
    split; [by eapply put_outcome_clean|]. split; [by eapply put_err_unchanged|done].
  - rewrite (proj2 (N.eqb_neq _ _) Hty). cbn [negb run_prog].
    eexists _, m, _. split; [reflexivity|]. split; [done|]. split; [done|]. split; [done|].
    destruct t; try done. by destruct (Hns s).
Qed.

(** set *)
Lemma set_value_run c w pe i m fp t fpv :
  runs_on w pe i m fp → mclean m →
  rep (w_heap w) (Some (se_value c)) t fpv → tclean t → t ≠ TNull → NoDup (fp ++ fpv) →
  ∃ w' m' err, run_prog (set_process c) w pe = Ok (w', pe, err) ∧
    leaves w w' i fp m' ∧ mclean m' ∧ (err ≠ None → w' = w) ∧
    put_outcome (keyToPath (se_target c)) t m m' err ∧
    (err = None → ∃ e', w_events w' !! i = Some e' ∧
       Get (w_heap w') e' (se_target c) = Ok (w_heap w', Some (se_value c))).
Proof.
  intros [Hpe (e & Hi & Hev)] Hm Hr Ht Hnn Hnd. unfold set_process. cbn [run_prog].
  destruct (rep_deref _ _ _ _ Hr) as [v Hv]. cbn [deref]. rewrite Hv.
  pose proof (rep_type_null _ _ _ _ _ Hr Hv) as Hnull.
  destruct (N.eqb_spec (v_type v) NullType) as [Hty|Hty]; [by apply Hnull in Hty|].
  cbn [negb run_prog]. rewrite (evt_of_eq w pe i e Hpe Hi).
  destruct (put_disjoint (w_heap w) e m fp (se_value c) t fpv (se_target c))
    as (pr & m' & fp' & Hput & Hev' & Ho & _ & Hst & _ & Hf & Hg); try done.
  rewrite Hput. eexists _, m', _. split; [reflexivity|].
  assert (i < length (w_events w)) as Hlt by (by eapply lookup_lt_Some).
  split.
  { split_and!; try done; simpl.
    - exists (put_event pr), fp'. by rewrite list_lookup_insert.
    - intros j Hj. by rewrite list_lookup_insert_ne. }
  split; [by eapply put_outcome_clean|]. split; [|split; [done|]].
  - intros He. destruct (Hf He) as [-> ->]. rewrite list_insert_id by done. apply world_eta.
  - intros He. exists (put_event pr). simpl. rewrite list_lookup_insert by done.
    split; [done|]. by apply Hg.
Qed.

Lemma set_copy_run c w pe i m fp v :
  runs_on w pe i m fp → mclean m →
  hvals (w_heap w) !! se_value c = Some v → v_type v = NullType → se_copy_from c ≠ "" →
  keyToPath (se_copy_from c) ≠ [] →
  (∀ s, keyToPath (se_target c) = keyToPath (se_copy_from c) ++ s → s = []) →
  ∃ w' m' err, run_prog (set_process c) w pe = Ok (w', pe, err) ∧
    leaves_shared w w' i fp m' ∧ mclean m' ∧ (err ≠ None → w' = w) ∧
    match tlookup (keyToPath (se_copy_from c)) m with
    | None => err = Some (EKeyMissing (se_copy_from c)) ∧ m' = m
    | Some t => put_outcome (keyToPath (se_target c)) t m m' err
    end.
Proof.
  intros [Hpe (e & Hi & Hev)] Hm Hv Hty Hcf Hne Hpre. unfold set_process. cbn [run_prog deref].
  rewrite Hv, Hty. cbn [N.eqb negb NullType].
  rewrite (proj2 (String.eqb_neq _ _) Hcf). cbn [negb run_prog].
  rewrite (evt_of_eq w pe i e Hpe Hi).
  destruct (get_field (w_heap w) e m fp (se_copy_from c) Hev Hm) as (h' & op & Hg & Hev' & Hst & Hh & Ho).
  rewrite Hg. specialize (Hh Hne). subst h'. rewrite field_value_ne in Ho by done.
  assert (set_heap w (w_heap w) = w) as Hw by (by destruct w).
  rewrite Hw.
  destruct (tlookup (keyToPath (se_copy_from c)) m) as [t|] eqn:El; simpl in Ho.
  2:{ subst op. simpl. eexists _, m, _. split; [reflexivity|]. split; [|done].
      split; [exists e; split; [done|by eapply ev_rep_shows]|]. split; [apply stable_refl|done]. }
  destruct Ho as (p & fpt & -> & Hp). cbn [run_prog]. rewrite (evt_of_eq w pe i e Hpe Hi).
  destruct (put_copy (w_heap w) e m fp p t fpt (keyToPath (se_copy_from c)) (se_target c))
    as (pr & m' & Hput & Hsh & Hout & Hst2 & Hf & _); try done.
  { by eapply tlookup_clean. }
  rewrite Hput. eexists _, m', _. split; [reflexivity|].
  split.
  { split_and!; try done; simpl.
    - exists (put_event pr). rewrite list_lookup_insert; [done|]. by eapply lookup_lt_Some.
    - intros j Hj. by rewrite list_lookup_insert_ne. }
  split; [by eapply put_outcome_clean|]. split; [|done].
  intros He. destruct (Hf He) as [-> ->]. rewrite list_insert_id by done. apply world_eta.
Qed.

Lemma set_nothing_run c w pe i e v :
  pe_data pe = Some i → w_events w !! i = Some e →
  hvals (w_heap w) !! se_value c = Some v → v_type v = NullType → se_copy_from c = "" →
  run_prog (set_process c) w pe =
  Ok (w, pe, if decide (keyToPath (se_target c) = []) then Some err_empty else None).
Proof.
  intros Hpe Hi Hv Hty Hcf. unfold set_process. cbn [run_prog deref].
  rewrite Hv, Hty, Hcf. cbn [N.eqb negb NullType String.eqb run_prog].
  rewrite (evt_of_eq w pe i e Hpe Hi). unfold Put, put.
  destruct (keyToPath (se_target c)) as [|k path]; simpl;
    rewrite list_insert_id by done; by rewrite world_eta.
Qed.

(** append *)
Definition append_finish (c : append_config) (p : ptr) : prog (option goerr) :=
  PNew (mkString (ap_value c)) (λ s,
    PLoad (Some p) (λ a,
      PStore (Some p) (with_arr a (Some (arr_of a ++ [Some s]))) (Ret None))).

Lemma append_finish_run c w pe p v t fpt :
  hvals (w_heap w) !! p = Some v → v_type v = ArrayType →
  rep (w_heap w) (Some p) t fpt → NoDup fpt →
  ∃ w' ts, run_prog (append_finish c p) w pe = Ok (w', pe, None) ∧
    array_elems t = Some ts ∧
    rep (w_heap w') (Some p) (TArr (ts ++ [TStr (ap_value c)])) fpt ∧
    stable (w_heap w) (w_heap w') (λ l, l = LArr p) ∧
    w_events w' = w_events w ∧ w_env w' = w_env w ∧ w_log w' = w_log w.
Proof.
  intros Hp Hty Hr Hnd. unfold append_finish. cbn [run_prog].
  destruct (alloc_val (w_heap w) (mkString (ap_value c))) as [h1 s] eqn:Ea.
  assert (∀ W, stable (w_heap w) h1 W) as Hst1.
  { intros W. pose proof (stable_alloc_val (w_heap w) (mkString (ap_value c)) W) as H. by rewrite Ea in H. }
  assert (rep h1 (Some s) (TStr (ap_value c)) []) as Hs.
  { eapply (alloc_scalar_rep (w_heap w) (mkString (ap_value c))); [|done]. unfold alloc_some. by rewrite Ea. }
  assert (rep h1 (Some p) t fpt) as Hr1 by (eapply rep_frame; [done|apply (Hst1 noW)|auto]).
  assert (hvals h1 !! p = Some v) as Hp1.
  { destruct (Hst1 noW) as (G & _). destruct (G _ _ Hp) as [?|[[] _]]; done. }
  cbn [deref set_heap w_heap]. rewrite Hp1.
  rewrite decide_True by (by eapply lookup_lt_Some).
  destruct (array_extend h1 p v t fpt [Some s] [TStr (ap_value c)] [] Hp1 Hty Hr1 Hnd)
    as (ts & t' & He & He' & Hr' & Hst').
  { apply (rep_list_cons h1 (Some s) [] _ [] [] []); [done|constructor]. }
  { by apply not_elem_of_nil. }
  eexists _, ts. split; [reflexivity|]. cbn [w_heap w_events w_env w_log].
  split; [done|]. split.
  - rewrite app_nil_r in Hr'. destruct t'; simpl in He'; simplify_eq.
    + by destruct ts.
    + exact Hr'.
  - split; [|done]. eapply stable_trans; [apply Hst1|exact Hst'].
Qed.

Lemma append_process_eq c :
  append_process c =
  PGet (ap_field c) (λ v,
    match v with
    | None => PNew (mkArray []) (λ p, PPut (ap_field c) (Some p) (λ _ _, append_finish c p))
    | Some p =>
        PLoad v (λ x,
          if N.eqb (v_type x) StringType then PNew (mkArray [v]) (append_finish c)
          else if negb (N.eqb (v_type x) ArrayType)
               then Ret (Some (EMsg "value to append to is not array"))
               else append_finish c p)
    end).
Proof. reflexivity. Qed.

Lemma alloc_val_new h v : hvals (alloc_val h v).1 !! (alloc_val h v).2 = Some v.
Proof. simpl. rewrite lookup_app_r by apply Nat.le_refl. by rewrite Nat.sub_diag. Qed.

Lemma append_run c w pe i m fp :
  runs_on w pe i m fp → mclean m →
  ∃ w' m' err, run_prog (append_process c) w pe = Ok (w', pe, err) ∧
    leaves w w' i fp m' ∧ mclean m' ∧
    match field_value (keyToPath (ap_field c)) m with
    | None =>
        err = None ∧
        (if decide (keyToPath (ap_field c) = []) then m' = m
         else (blocked (keyToPath (ap_field c)) m ∧ m' = m) ∨
              (¬ blocked (keyToPath (ap_field c)) m ∧
               written (keyToPath (ap_field c)) (TArr [TStr (ap_value c)]) m m'))
    | Some t =>
        match array_elems t with
        | Some ts => err = None ∧ written (keyToPath (ap_field c)) (TArr (ts ++ [TStr (ap_value c)])) m m'
        | None =>
            match t with
            | TStr _ => err = None ∧ m' = m
            | _ => err = Some (EMsg "value to append to is not array") ∧ m' = m
            end
        end
    end.
Proof.
  intros [Hpe (e & Hi & Hev)] Hm. rewrite append_process_eq. cbn [run_prog].
  rewrite (evt_of_eq w pe i e Hpe Hi).
  assert (i < length (w_events w)) as Hlt by (by eapply lookup_lt_Some).
  destruct (get_field (w_heap w) e m fp (ap_field c) Hev Hm) as (h' & op & Hg & Hev' & Hst & Hh & Ho).
  rewrite Hg.
  assert (leaves w (set_heap w h') i fp m) as Hl.
  { split; [exists e, fp; done|]. split; [|done]. eapply stable_weaken; [exact Hst|done]. }
  destruct (field_value (keyToPath (ap_field c)) m) as [t|] eqn:Efv; simpl in Ho.
  - destruct Ho as (p & fpt & -> & Hp). destruct (rep_deref _ _ _ _ Hp) as [v Hv].
    cbn [run_prog deref]. cbn [set_heap w_heap]. rewrite Hv.
    destruct (rep_type_string h' p t fpt v Hp Hv) as [[Hty ->]|[Hty Hns]].
    + (* a string: wrapped in an array nobody stores *)
      rewrite Hty, N.eqb_refl. cbn [run_prog w_heap set_heap].
      destruct (alloc_val h' (mkArray [Some p])) as [h1 q] eqn:Ea.
      pose proof (alloc_val_new h' (mkArray [Some p])) as Hq. rewrite Ea in Hq. simpl in Hq.
      assert (q = length (hvals h')) as Eq by (unfold alloc_val in Ea; congruence).
      assert (∀ W, stable h' h1 W) as Hst1.
      { intros W. pose proof (stable_alloc_val h' (mkArray [Some p]) W) as H. by rewrite Ea in H. }
      assert (fpt = []) as ->. { inversion Hp; simplify_eq; try done. }
      assert (rep h1 (Some q) (TArr [TStr (v_str v)]) [LArr q]) as Hrq.
      { eapply (rep_arr h1 q (mkArray [Some p]) [Some p] _ []); try done.
        apply (rep_list_cons h1 (Some p) [] _ [] [] []); [|constructor].
        eapply rep_frame; [done|apply (Hst1 noW)|auto]. }
      destruct (append_finish_run c (set_heap (set_heap w h') h1) pe q (mkArray [Some p])
                  (TArr [TStr (v_str v)]) [LArr q])
        as (w' & ts & Hrun & He & Hr' & Hst' & E1 & E2 & E3); try done.
      { apply NoDup_singleton. }
      cbn [set_heap w_heap w_events w_env w_log] in *.
      exists w', m, None. split; [exact Hrun|].
      assert (stable h' (w_heap w') noW) as Hst2.
      { eapply stable_trans_fresh; [apply (Hst1 noW)|exact Hst'|].
        intros l ->. right. simpl. lia. }
      split; [|done]. split; [|split; [|split; [|done]]].
      * exists e, fp. rewrite E1. split; [done|]. eapply ev_rep_frame; [exact Hev'|exact Hst2|auto].
      * eapply stable_weaken; [eapply stable_trans; [exact Hst|exact Hst2]|done].
      * intros j Hj. by rewrite E1.
    + rewrite (proj2 (N.eqb_neq _ _) Hty).
      destruct (rep_type_array h' p t fpt v Hp Hv)
        as [(Hta & Hobj & ts & fps & He & Hls & -> & Hn1 & Hn2)|[Hta Hna]].
      * (* an array: extended in place *)
        rewrite Hta. cbn [N.eqb negb ArrayType Pos.eqb].
        assert (keyToPath (ap_field c) ≠ []) as Hkne.
        { intros E. unfold field_value in Efv. rewrite E in Efv. destruct m; [done|].
          simpl in Efv. simplify_eq. }
        rewrite field_value_ne in Efv by done.
        specialize (Hh Hkne). subst h'.
        assert (sublist (LArr p :: fps) fp) as Hsub.
        { pose proof (get_path_ref (keyToPath (ap_field c)) (w_heap w) e m fp Hev) as G.
          rewrite tget_clean, Efv in G by done.
          destruct G as (h2 & p2 & fp2 & Hg2 & Hp2 & Hs2 & _).
          unfold Get in Hg. rewrite Hg in Hg2. simplify_eq.
          by destruct (proj1 (rep_fun_all _) _ _ _ Hp _ _ Hp2) as [_ <-]. }
        pose proof (ev_rep_NoDup _ _ _ _ Hev) as Hnd.
        assert (set_heap w (w_heap w) = w) as Hw by (by destruct w). rewrite Hw in *.
        destruct (append_finish_run c w pe p v t (LArr p :: fps))
          as (w' & ts' & Hrun & He' & Hr' & Hst' & E1 & E2 & E3); try done.
        { by eapply NoDup_sublist. }
        rewrite He in He'. simplify_eq.
        destruct (tput_exists (keyToPath (ap_field c)) (TArr (ts' ++ [TStr (ap_value c)])) t m
                                  Hkne Efv) as [m' Hm'].
        destruct (modify_in_place (w_heap w) e m fp p t (LArr p :: fps) (keyToPath (ap_field c))
                    (w_heap w') (λ l, l = LArr p) (TArr (ts' ++ [TStr (ap_value c)])) (LArr p :: fps) m')
          as (fp' & Hev2 & Hin & _); try done; try (by apply tclean_tsorted).
        { intros l ->. right. set_solver. }
        { by eapply NoDup_sublist. }
        { intros l Hl'. by left. }
        assert (Forall tclean (ts' ++ [TStr (ap_value c)])) as Hcl.
        { apply Forall_app. split; [|by repeat constructor].
          eapply tclean_elems; [|exact He]. by eapply tlookup_clean. }
        destruct (tput_clean (keyToPath (ap_field c)) (TArr (ts' ++ [TStr (ap_value c)])) m Hm)
          as (o & Eo & Hc). { by apply tclean_arr. }
        rewrite Hm' in Eo. injection Eo as <-.
        exists w', m', None. split; [exact Hrun|]. split; [|split; [by apply Hc|]].
        -- split; [|split; [|split; [|done]]].
           ++ exists e, fp'. by rewrite E1.
           ++ eapply stable_weaken; [exact Hst'|]. intros l ->. eapply sublist_elem; [exact Hsub|]. set_solver.
           ++ intros j Hj. by rewrite E1.
        -- rewrite He. split; [done|]. by apply tput_written.
      * rewrite (proj2 (N.eqb_neq _ _) Hta). cbn [negb run_prog].
        eexists _, m, _. split; [reflexivity|]. split; [done|]. split; [done|].
        rewrite Hna. destruct t; try done. by destruct (Hns s).
  - (* missing: a new array is put, then extended *)
    subst op. cbn [run_prog]. cbn [set_heap w_heap].
    assert (h' = w_heap w) as ->.
    { destruct (decide (keyToPath (ap_field c) = [])) as [E|E]; [|by apply Hh].
      unfold field_value in Efv. rewrite E in Efv. destruct m; [|done].
      unfold Get, get_path in Hg. rewrite E in Hg. repeat case_match; simplify_eq; done. }
    assert (set_heap w (w_heap w) = w) as Hw by (by destruct w). rewrite Hw in *.
    destruct (alloc_val (w_heap w) (mkArray [])) as [h1 q] eqn:Ea.
    pose proof (alloc_val_new (w_heap w) (mkArray [])) as Hq. rewrite Ea in Hq. simpl in Hq.
    assert (q = length (hvals (w_heap w))) as Eq by (unfold alloc_val in Ea; congruence).
    assert (∀ W, stable (w_heap w) h1 W) as Hst1.
    { intros W. pose proof (stable_alloc_val (w_heap w) (mkArray []) W) as H. by rewrite Ea in H. }
    assert (rep h1 (Some q) TNilArr [LArr q]) as Hrq.
    { by eapply (rep_nilarr h1 q (mkArray [])). }
    assert (ev_rep h1 e m fp) as Hev1 by (eapply ev_rep_frame; [exact Hev|apply (Hst1 noW)|auto]).
    assert (LArr q ∉ fp) as Hqfp.
    { intros Hl'. apply (ev_rep_alloc _ _ _ _ _ Hev) in Hl'. simpl in Hl'. lia. }
    assert (evt_of (set_heap w h1) pe = Some (i, e)) as Hevt by (by apply evt_of_eq).
    change (mkWorld h1 (w_events w) (w_env w) (w_log w)) with (set_heap w h1). rewrite Hevt.
    destruct (put_disjoint h1 e m fp q TNilArr [LArr q] (ap_field c))
      as (pr & m1 & fp1 & Hput & Hev2 & Hout & _ & Hst2 & Hin & Hf & Hgq); try done.
    { apply NoDup_app. split; [by eapply ev_rep_NoDup|]. split; [|apply NoDup_singleton]. set_solver. }
    cbn [set_heap w_heap w_events w_env w_log]. rewrite Hput.
    set (w2 := mkWorld (put_heap pr) (<[i:=put_event pr]> (w_events w)) (w_env w) (w_log w)).
    destruct (put_err pr) as [err|] eqn:Eerr.
    + destruct (Hf ltac:(done)) as [Hh2 He2].
      destruct (append_finish_run c w2 pe q (mkArray []) TNilArr [LArr q])
        as (w' & ts & Hrun & He & Hr' & Hst' & E1 & E2 & E3); try done.
      { simpl. by rewrite Hh2. } { simpl. by rewrite Hh2. } { apply NoDup_singleton. }
      exists w', m, None. split; [exact Hrun|].
      assert (stable (w_heap w) (w_heap w') noW) as Hst3.
      { eapply stable_trans_fresh; [apply (Hst1 noW)| |].
        - rewrite <-Hh2. exact Hst'.
        - intros l ->. right. simpl. lia. }
      split; [|split; [done|]].
      * split; [|split; [|split; [|split]]].
        -- exists e, fp. rewrite E1. simpl. rewrite list_lookup_insert, He2 by done. split; [done|].
           eapply ev_rep_frame; [exact Hev|exact Hst3|auto].
        -- eapply stable_weaken; [exact Hst3|done].
        -- intros j Hj. rewrite E1. simpl. by rewrite list_lookup_insert_ne.
        -- by rewrite E2.
        -- by rewrite E3.
      * split; [done|]. destruct Hout as [(-> & _)|[(? & ? & _)|(_ & _ & ? & _)]]; [by rewrite decide_True| |done].
        rewrite decide_False by done. by left.
    + destruct Hout as [(_ & ? & _)|[(_ & _ & ? & _)|(Hkne & Hnb & _ & Hwr & Hc1)]]; [done|done|].
      destruct (Hgq eq_refl) as [Hgq1 Hrq1].
      assert (hvals (put_heap pr) !! q = Some (mkArray [])) as Hq2.
      { destruct Hst2 as (G & _). destruct (G _ _ Hq) as [?|[HW _]]; done. }
      destruct (append_finish_run c w2 pe q (mkArray []) TNilArr [LArr q])
        as (w' & ts & Hrun & He & Hr' & Hst' & E1 & E2 & E3); try done.
      { apply NoDup_singleton. }
      simpl in He. injection He as <-. simpl in Hr'.
      assert (tlookup (keyToPath (ap_field c)) m1 = Some TNilArr) as El1.
      { destruct Hwr as (Hw1 & _). specialize (Hw1 []). by rewrite app_nil_r in Hw1. }
      destruct (tput_exists (keyToPath (ap_field c)) (TArr [TStr (ap_value c)]) TNilArr m1 Hkne El1) as [m' Hm'].
      destruct (modify_in_place (put_heap pr) (put_event pr) m1 fp1 q TNilArr [LArr q] (keyToPath (ap_field c))
                  (w_heap w') (λ l, l = LArr q) (TArr [TStr (ap_value c)]) [LArr q] m')
        as (fp' & Hev3 & Hin3 & _); try done; try (by apply tclean_tsorted).
      { intros l ->. right. set_solver. }
      { apply NoDup_singleton. }
      { intros l Hl'. by left. }
      destruct (tput_clean (keyToPath (ap_field c)) (TArr [TStr (ap_value c)]) m1 Hc1)
        as (o & Eo & Hc). { by apply tclean_arr; repeat constructor. }
      rewrite Hm' in Eo. injection Eo as <-.
      exists w', m', None. split; [exact Hrun|]. split; [|split; [by apply Hc|]].
      * split; [|split; [|split; [|split]]].
        -- exists (put_event pr), fp'. rewrite E1. simpl. by rewrite list_lookup_insert.
        -- eapply stable_trans_fresh; [|exact Hst'|].
           ++ eapply stable_trans; [apply Hst1|exact Hst2].
           ++ intros l ->. right. simpl. lia.
        -- intros j Hj. rewrite E1. simpl. by rewrite list_lookup_insert_ne.
        -- by rewrite E2.
        -- by rewrite E3.
      * split; [done|]. rewrite decide_False by done. right. split; [done|].
        eapply written_trans; [exact Hwr|]. by apply tput_written.
Qed.

(** eventutil.Append *)
Definition elems_or_single (t : tree) : list tree :=
  match array_elems t with Some l => l | None => [t] end.

Lemma item_elems h p t fpv x :
  rep h (Some p) t fpv → hvals h !! p = Some x →
  ∃ fpadd, rep_list h (if N.eqb (v_type x) ArrayType then arr_of x else [Some p]) (elems_or_single t) fpadd ∧
    sublist fpadd fpv.
Proof.
  intros Hr Hx. unfold elems_or_single.
  destruct (rep_type_array h p t fpv x Hr Hx) as [(Hta & _ & ts & fps & He & Hls & -> & _)|[Hta Hna]].
  - rewrite Hta, N.eqb_refl, He. exists fps. split; [done|]. by apply sublist_cons.
  - rewrite (proj2 (N.eqb_neq _ _) Hta), Hna. exists (fpv ++ []).
    split; [|by rewrite app_nil_r]. constructor; [done|constructor].
Qed.

Definition util_finish (key : string) (item : option ptr) (t : ptr) : prog (option goerr) :=
  PLoad item (λ x,
    PLoad (Some t) (λ a,
      let added := if N.eqb (v_type x) ArrayType then arr_of x else [item] in
      let arr := match added with [] => v_arr a | _ => Some (arr_of a ++ added) end in
      PStore (Some t) (with_arr a arr) (PPut key (Some t) (λ _ err, Ret err)))).

(** Extending the array [q] with the item: everything up to the final Put. *)
Lemma util_finish_run key p w pe q v ta fpa t fpv :
  hvals (w_heap w) !! q = Some v → v_type v = ArrayType →
  rep (w_heap w) (Some q) ta fpa → NoDup fpa →
  rep (w_heap w) (Some p) t fpv → NoDup fpv → (∀ l, l ∈ fpv → l ∉ fpa) →
  ∃ h1 ta' ts fpa', array_elems ta = Some ts ∧ array_elems ta' = Some (ts ++ elems_or_single t) ∧
    rep h1 (Some q) ta' fpa' ∧ NoDup fpa' ∧ (∀ l, l ∈ fpa' → l ∈ fpa ∨ l ∈ fpv) ∧
    stable (w_heap w) h1 (λ l, l = LArr q) ∧
    run_prog (util_finish key (Some p) q) w pe =
    run_prog (PPut key (Some q) (λ _ err, Ret err)) (set_heap w h1) pe.
Proof.
  intros Hq Hty Hra Hnda Hr Hndv Hd. unfold util_finish.
  destruct (rep_deref _ _ _ _ Hr) as [x Hx].
  destruct (item_elems _ _ _ _ _ Hr Hx) as (fpadd & Hadd & Hsub).
  assert (LArr q ∈ fpa) as Hqa.
  { destruct (rep_type_array _ _ _ _ _ Hra Hq) as [(_ & _ & ts & fps & _ & _ & -> & _)|[? _]]; [set_solver|done]. }
  destruct (array_extend (w_heap w) q v ta fpa _ _ fpadd Hq Hty Hra Hnda Hadd)
    as (ts & ta' & He & He' & Hr' & Hst').
  { intros Hl. eapply Hd; [|exact Hqa]. by eapply sublist_elem. }
  set (h1 := set_val _ _ _) in *.
  exists h1, ta', ts, (fpa ++ fpadd). split; [done|]. split; [done|]. split; [done|]. split.
  { apply NoDup_app. split; [done|]. split; [|by eapply NoDup_sublist].
    intros l Hl Hl2. eapply Hd; [|exact Hl]. by eapply sublist_elem. }
  split.
  { intros l. rewrite elem_of_app. intros [?|?]; [by left|right]. by eapply sublist_elem. }
  split; [done|].
  cbn [run_prog deref]. rewrite Hx, Hq. 
  rewrite decide_True by (by eapply lookup_lt_Some). reflexivity.
Qed.

Lemma eventutil_append_eq key p :
  eventutil_append key (Some p) =
  PGet key (λ v,
    match v with
    | None => PNew (mkArray []) (util_finish key (Some p))
    | Some t =>
        PLoad v (λ y, if negb (N.eqb (v_type y) ArrayType) then PNew (mkArray [v]) (util_finish key (Some p))
                      else util_finish key (Some p) t)
    end).
Proof. reflexivity. Qed.

Lemma eventutil_append_run key p w pe i m fp t fpv :
  runs_on w pe i m fp → mclean m →
  rep (w_heap w) (Some p) t fpv → tclean t → NoDup (fp ++ fpv) →
  ∃ w' m' err t', run_prog (eventutil_append key (Some p)) w pe = Ok (w', pe, err) ∧
    leaves w w' i fp m' ∧ mclean m' ∧
    array_elems t' = Some (match field_value (keyToPath key) m with
                           | None => []
                           | Some t0 => elems_or_single t0
                           end ++ elems_or_single t) ∧
    put_outcome (keyToPath key) t' m m' err.
Proof.
  intros [Hpe (e & Hi & Hev)] Hm Hr Ht Hnd. rewrite eventutil_append_eq. cbn [run_prog].
  rewrite (evt_of_eq w pe i e Hpe Hi).
  assert (i < length (w_events w)) as Hlt by (by eapply lookup_lt_Some).
  apply NoDup_app in Hnd as (Hnd1 & Hnd2 & Hnd3).
  destruct (get_field (w_heap w) e m fp key Hev Hm) as (h' & op & Hg & Hev' & Hst & Hh & Ho).
  rewrite Hg.
  assert (rep h' (Some p) t fpv) as Hr1 by (eapply rep_frame; [done|exact Hst|auto]).
  assert (Forall tclean (elems_or_single t)) as Hclt.
  { unfold elems_or_single. destruct (array_elems t) eqn:E; [by eapply tclean_elems|by repeat constructor]. }
  assert (∀ h2 v add q, alloc_val h' v = (h2, q) → rep h2 (Some q) add [LArr q] ∨ True →
            (∀ W, stable h' h2 W) ∧ hvals h2 !! q = Some v ∧ EventRefine.fresh h' (LArr q)) as Hnew.
  { intros h2 v add q Ea _. unfold EventRefine.fresh. split; [|split].
    - intros W. pose proof (stable_alloc_val h' v W) as H. by rewrite Ea in H.
    - pose proof (alloc_val_new h' v) as H. by rewrite Ea in H.
    - unfold alloc_val in Ea. simplify_eq. simpl. lia. }
  destruct (field_value (keyToPath key) m) as [t0|] eqn:Efv; simpl in Ho.
  - destruct Ho as (q0 & fpt & -> & Hp). destruct (rep_deref _ _ _ _ Hp) as [v Hv].
    cbn [run_prog deref]. cbn [set_heap w_heap]. rewrite Hv.
    assert (keyToPath key ≠ [] → sublist fpt fp) as Hsub.
    { intros Hkne. specialize (Hh Hkne). subst h'. rewrite field_value_ne in Efv by done.
      pose proof (get_path_ref (keyToPath key) (w_heap w) e m fp Hev) as G.
      rewrite tget_clean, Efv in G by done.
      destruct G as (h2 & p2 & fp2 & Hg2 & Hp2 & Hs2 & _).
      unfold Get in Hg. rewrite Hg in Hg2. simplify_eq.
      by destruct (proj1 (rep_fun_all _) _ _ _ Hp _ _ Hp2) as [_ <-]. }
    assert (tclean t0) as Hct0.
    { unfold field_value in Efv. destruct (keyToPath key), m; simplify_eq; by eapply tlookup_clean. }
    destruct (rep_type_array h' q0 t0 fpt v Hp Hv)
      as [(Hta & Hobj & ts & fps & He & Hls & -> & Hn1 & Hn2)|[Hta Hna]].
    + (* in place *)
      rewrite Hta. cbn [N.eqb negb ArrayType Pos.eqb].
      assert (keyToPath key ≠ []) as Hkne.
      { intros E. unfold field_value in Efv. rewrite E in Efv. destruct m; [done|].
        simpl in Efv. simplify_eq. }
      specialize (Hsub Hkne).
      rewrite field_value_ne in Efv by done. specialize (Hh Hkne). subst h'.
      assert (set_heap w (w_heap w) = w) as Hw by (by destruct w).
      destruct (util_finish_run key p w pe q0 v t0 (LArr q0 :: fps) t fpv)
        as (h1 & ta' & ts' & fpa' & He1 & He2 & Hr' & Hnda & Hin & Hst1 & Hrun); try done.
      { by eapply NoDup_sublist. }
      { intros l Hl Hl2. eapply Hnd2; [|exact Hl]. by eapply sublist_elem. }
      rewrite He in He1. simplify_eq.
      assert (tclean ta') as Hcl.
      { eapply elems_tclean; [exact He2|]. apply Forall_app. split; [by eapply tclean_elems|done]. }
      destruct (tput_exists (keyToPath key) ta' t0 m Hkne Efv) as [m' Hm'].
      destruct (modify_in_place (w_heap w) e m fp q0 t0 (LArr q0 :: fps) (keyToPath key)
                  h1 (λ l, l = LArr q0) ta' fpa' m')
        as (fp' & Hev2 & Hin2 & _ & Hput); try done; try (by apply tclean_tsorted).
      { intros l ->. right. set_solver. }
      { intros l Hl'. destruct (Hin _ Hl') as [?|Hl2]; [by left|]. right. intros Hl3. by eapply Hnd2. }
      destruct (tput_clean (keyToPath key) ta' m Hm Hcl) as (o & Eo & Hc).
      rewrite Hm' in Eo. injection Eo as <-.
      eexists _, m', None, ta'. split.
      { change (mkWorld (w_heap w) (w_events w) (w_env w) (w_log w)) with (set_heap w (w_heap w)).
        rewrite Hw, Hrun. cbn [run_prog].
        rewrite (evt_of_eq (set_heap w h1) pe i e Hpe Hi).
        unfold Put. cbn [set_heap w_heap]. rewrite Hput. cbn [put_err put_heap put_event]. reflexivity. }
      split; [|split; [by apply Hc|split]].
      * split; [|split; [|split; [|done]]]; cbn [w_heap w_events].
        -- exists e, fp'. by rewrite list_lookup_insert.
        -- eapply stable_weaken; [exact Hst1|]. intros l ->. eapply sublist_elem; [exact Hsub|]. set_solver.
        -- intros j Hj. by rewrite list_lookup_insert_ne.
      * unfold elems_or_single at 1. by rewrite He.
      * right. right. split_and!; try done.
        -- by eapply tlookup_not_blocked.
        -- apply tput_written; [done|by apply tclean_not_nil].
        -- by apply Hc.
    + (* another value becomes the first element *)
      rewrite (proj2 (N.eqb_neq _ _) Hta). cbn [negb run_prog w_heap set_heap].
      destruct (alloc_val h' (mkArray [Some q0])) as [h2 q] eqn:Ea.
      destruct (Hnew _ _ TNull _ Ea (or_intror I)) as (Hst2 & Hq & Hfq).
      assert (rep h2 (Some q0) t0 fpt) as Hp2 by (eapply rep_frame; [exact Hp|apply (Hst2 noW)|auto]).
      assert (rep h2 (Some p) t fpv) as Hr2 by (eapply rep_frame; [exact Hr1|apply (Hst2 noW)|auto]).
      assert (rep h2 (Some q) (TArr [t0]) (LArr q :: fpt ++ [])) as Hrq.
      { eapply (rep_arr h2 q (mkArray [Some q0]) [Some q0]); try done.
        apply rep_list_cons; [done|constructor]. }
      rewrite app_nil_r in Hrq.
      assert (LArr q ∉ fpt) as Hqt.
      { intros Hl. eapply not_fresh_allocated; [|exact Hfq]. exact (rep_alloc _ _ _ _ _ Hp Hl). }
      assert (ev_rep h2 e m fp) as Hev2 by (eapply ev_rep_frame; [exact Hev'|apply (Hst2 noW)|auto]).
      assert (∀ l, l ∈ fpt → l ∈ fp) as Hfp.
      { intros l Hl. destruct (decide (keyToPath key = [])) as [E|E].
        - pose proof (get_path_ref (keyToPath key) (w_heap w) e m fp Hev) as G.
          unfold field_value in Efv. rewrite E in *. destruct m as [|e0 m0]; [done|].
          simpl in G. destruct G as (h3 & p3 & fp3 & Hg3 & Hp3 & Hs3 & _).
          unfold Get in Hg. rewrite E, Hg3 in Hg. simplify_eq.
          destruct (proj1 (rep_fun_all _) _ _ _ Hp _ _ Hp3) as [_ ->]. by eapply sublist_elem.
        - eapply sublist_elem; [by apply Hsub|done]. }
      assert (NoDup fpt) as Hndt.
      { destruct (decide (keyToPath key = [])) as [E|E].
        - pose proof (get_path_ref (keyToPath key) (w_heap w) e m fp Hev) as G.
          unfold field_value in Efv. rewrite E in *. destruct m as [|e0 m0]; [done|].
          simpl in G. destruct G as (h3 & p3 & fp3 & Hg3 & Hp3 & Hs3 & _).
          unfold Get in Hg. rewrite E, Hg3 in Hg. simplify_eq.
          destruct (proj1 (rep_fun_all _) _ _ _ Hp _ _ Hp3) as [_ ->]. by eapply NoDup_sublist.
        - eapply NoDup_sublist; [by apply Hsub|done]. }
      destruct (util_finish_run key p (set_heap w h2) pe q (mkArray [Some q0]) (TArr [t0]) (LArr q :: fpt) t fpv)
        as (h1 & ta' & ts' & fpa' & He1 & He2 & Hr' & Hnda & Hin & Hst1 & Hrun); try done.
      { by apply NoDup_cons. }
      { intros l Hl Hl2. apply elem_of_cons in Hl2 as [->|Hl2].
        - eapply not_fresh_allocated; [|exact Hfq]. exact (rep_alloc _ _ _ _ _ Hr1 Hl).
        - eapply Hnd2; [|exact Hl]. by apply Hfp. }
      simpl in He1. injection He1 as <-. cbn [set_heap w_heap] in Hst1.
      assert (stable h' h1 noW) as Hst3.
      { eapply stable_trans_fresh; [apply (Hst2 noW)|exact Hst1|]. intros l ->. by right. }
      assert (ev_rep h1 e m fp) as Hev3 by (eapply ev_rep_frame; [exact Hev'|exact Hst3|auto]).
      assert (tclean ta') as Hcl.
      { eapply elems_tclean; [exact He2|]. by constructor. }
      assert (array_elems ta' = Some (elems_or_single t0 ++ elems_or_single t)) as He3.
      { rewrite He2. unfold elems_or_single at 2. by rewrite Hna. }
    match goal with |- context [run_prog (util_finish key (Some p) q) ?w0 pe] =>
      change w0 with (set_heap w h2) end. rewrite Hrun.
    change (set_heap (set_heap w h2) h1) with (set_heap w h1). cbn [run_prog]. rewrite (evt_of_eq (set_heap w h1) pe i e Hpe Hi).
      cbn [set_heap w_heap].
      destruct (decide (keyToPath key = [])) as [E|E].
      * unfold Put, put. rewrite E. cbn [put_err put_heap put_event].
        eexists _, m, _, ta'. split; [reflexivity|].
        split; [|split; [done|split; [done|]]].
        -- split; [|split; [|split; [|done]]]; cbn [w_heap w_events].
           ++ exists e, fp. by rewrite list_lookup_insert.
           ++ eapply stable_weaken; [eapply stable_trans; [exact Hst|exact Hst3]|done].
           ++ intros j Hj. by rewrite list_lookup_insert_ne.
        -- left. done.
      * specialize (Hh E). subst h'. rewrite field_value_ne in Efv by done.
        assert (rep h1 (Some q0) t0 fpt) as Hp3 by (eapply rep_frame; [exact Hp|exact Hst3|auto]).
        destruct (put_over h1 e m fp q0 t0 fpt q ta' fpa' key)
          as (pr & m' & fp' & Hput & Herr & Hold & Hev4 & Hwr & Hcm & Hst4 & Hin4 & _); try done.
        { (* Get still finds the old value *)
          pose proof (get_path_ref (keyToPath key) h1 e m fp Hev3) as G.
          rewrite tget_clean, Efv in G by done.
          destruct G as (h3 & p3 & fp3 & Hg3 & Hp4 & Hs3 & _ & Hh3 & Hg4). specialize (Hh3 E). subst h3.
          unfold Get. rewrite Hg3. do 3 f_equal.
          destruct (Hg4 E) as (r & Ef & Hgl).
          (* same maps, hence the same pointer *)
          unfold Get, get_path in Hg. rewrite Ef in Hg.
          assert (∀ path r0 gm m0 fps0, path ≠ [] → hmaps (w_heap w) !! r0 = Some gm → msorted gm →
                    rep_assoc (w_heap w) gm m0 fps0 →
                    get_loop (w_heap w) (Some r0) path = get_loop h1 (Some r0) path ∨
                    ∀ p1, get_loop (w_heap w) (Some r0) path ≠ Ok (Some p1)) as Hsame.
          { clear -Hst3. induction path as [|k path IH]; intros r0 gm m0 fps0 Hne Hr0 Hs0 Ha0; [done|].
            assert (hmaps h1 !! r0 = Some gm) as Hr1.
            { destruct Hst3 as (_ & G & _). by destruct (G _ _ Hr0). }
            destruct path as [|k2 path].
            - left. cbn [get_loop]. by rewrite (map_of_Some _ _ _ Hr0), (map_of_Some _ _ _ Hr1).
            - rewrite !get_loop_cons, (map_of_Some _ _ _ Hr0), (map_of_Some _ _ _ Hr1).
              destruct (mget k gm) as [op|] eqn:Hk; [|by left].
              destruct op as [qq|]; [|by left]. cbn [deref].
              destruct (rep_assoc_pick _ _ _ _ _ _ Ha0 Hk) as (tt & ff & _ & Hrr & _).
              destruct (rep_deref _ _ _ _ Hrr) as [vv Hvv].
              assert (hvals h1 !! qq = Some vv) as Hvv1.
              { destruct Hst3 as (G & _). by destruct (G _ _ Hvv) as [?|[[] _]]. }
              rewrite Hvv, Hvv1. destruct (is_object_dec tt) as [[mi ->]|Hno].
              + destruct (rep_TObj _ _ _ _ Hrr) as (v' & ri & gmi & fpi & Hvv' & Hty & Hobj & Hri & Hsi & Hai & ->).
                simplify_eq. rewrite Hobj, (map_of_Some _ _ _ Hri).
                assert (hmaps h1 !! ri = Some gmi) as Hri1.
                { destruct Hst3 as (_ & G & _). by destruct (G _ _ Hri). }
                rewrite (map_of_Some _ _ _ Hri1). destruct gmi as [|e0 gmi]; [by left|].
                by eapply IH.
              + rewrite (rep_not_object_map _ _ _ _ _ Hrr Hvv Hno). by left. }
          pose proof Hev as Hev0. unfold ev_rep in Hev0. rewrite Ef in Hev0.
          destruct Hev0 as (gm & fps & Hr0 & Hs0 & Ha0 & _).
          destruct (keyToPath key) as [|kk kpath] eqn:Ek; [done|].
          rewrite (map_of_Some _ _ _ Hr0) in Hg. destruct gm as [|e0 gm]; [done|].
          destruct (get_loop (w_heap w) (Some r) (kk :: kpath)) as [op|] eqn:Egl; [|done].
          injection Hg as ->.
          destruct (Hsame (kk :: kpath) r (e0 :: gm) m fps ltac:(done) Hr0 Hs0 Ha0) as [Hs|Hs];
            [|by destruct (Hs q0)].
          rewrite Egl, Hgl in Hs. congruence. }
        { intros l Hl. destruct (Hin _ Hl) as [Hl2|Hl2].
          - apply elem_of_cons in Hl2 as [->|Hl2]; [|by left]. right. intros Hl3.
            eapply not_fresh_allocated; [|exact Hfq]. by eapply ev_rep_alloc.
          - right. intros Hl3. by eapply Hnd2. }
        rewrite Hput, Herr. eexists _, m', None, ta'. split; [reflexivity|].
        split; [|split; [done|split; [done|]]].
        -- split; [|split; [|split; [|done]]]; cbn [w_heap w_events].
           ++ exists (put_event pr), fp'. by rewrite list_lookup_insert.
           ++ eapply stable_trans; [|exact Hst4].
              eapply stable_weaken; [exact Hst3|done].
           ++ intros j Hj. by rewrite list_lookup_insert_ne.
        -- right. right. split_and!; try done. by eapply tlookup_not_blocked.
  - (* missing *)
    subst op. cbn [run_prog w_heap set_heap].
    destruct (alloc_val h' (mkArray [])) as [h2 q] eqn:Ea.
    destruct (Hnew _ _ TNull _ Ea (or_intror I)) as (Hst2 & Hq & Hfq).
    assert (rep h2 (Some p) t fpv) as Hr2 by (eapply rep_frame; [exact Hr1|apply (Hst2 noW)|auto]).
    assert (rep h2 (Some q) TNilArr [LArr q]) as Hrq by (by eapply (rep_nilarr h2 q (mkArray []))).
    assert (ev_rep h2 e m fp) as Hev2 by (eapply ev_rep_frame; [exact Hev'|apply (Hst2 noW)|auto]).
    destruct (util_finish_run key p (set_heap w h2) pe q (mkArray []) TNilArr [LArr q] t fpv)
      as (h1 & ta' & ts' & fpa' & He1 & He2 & Hr' & Hnda & Hin & Hst1 & Hrun); try done.
    { apply NoDup_singleton. }
    { intros l Hl Hl2. apply elem_of_list_singleton in Hl2 as ->.
      eapply not_fresh_allocated; [|exact Hfq]. exact (rep_alloc _ _ _ _ _ Hr1 Hl). }
    simpl in He1. injection He1 as <-. cbn [set_heap w_heap] in Hst1.
    assert (stable h' h1 noW) as Hst3.
    { eapply stable_trans_fresh; [apply (Hst2 noW)|exact Hst1|]. intros l ->. by right. }
    assert (ev_rep h1 e m fp) as Hev3 by (eapply ev_rep_frame; [exact Hev'|exact Hst3|auto]).
    assert (tclean ta') as Hcl.
    { eapply elems_tclean; [exact He2|]. done. }
    destruct (put_disjoint h1 e m fp q ta' fpa' key)
      as (pr & m1 & fp1 & Hput & Hev4 & Hout & _ & Hst4 & _); try done.
    { apply NoDup_app. split; [done|]. split; [|done]. intros l Hl Hl2.
      destruct (Hin _ Hl2) as [Hl3|Hl3].
      - apply elem_of_list_singleton in Hl3 as ->.
        eapply not_fresh_allocated; [|exact Hfq]. by eapply ev_rep_alloc.
      - by eapply Hnd2. }
    match goal with |- context [run_prog (util_finish key (Some p) q) ?w0 pe] =>
      change w0 with (set_heap w h2) end. rewrite Hrun.
    change (set_heap (set_heap w h2) h1) with (set_heap w h1). cbn [run_prog]. rewrite (evt_of_eq (set_heap w h1) pe i e Hpe Hi).
    cbn [set_heap w_heap]. rewrite Hput. eexists _, m1, _, ta'. split; [reflexivity|].
    split; [|split; [by eapply put_outcome_clean|split; [done|done]]].
    split; [|split; [|split; [|done]]]; cbn [w_heap w_events].
    + exists (put_event pr), fp1. by rewrite list_lookup_insert.
    + eapply stable_trans; [|exact Hst4].
      eapply stable_weaken; [eapply stable_trans; [exact Hst|exact Hst3]|done].
    + intros j Hj. by rewrite list_lookup_insert_ne.
Qed.
