(** * Pipelines of built-in processors do what PipeSpec.v says: proofs. *)
From Verif Require Export PipeGen.

(** ** Nested maps *)
Lemma mset_mset {A} k (x y : A) m : mset k x (mset k y m) = mset k x m.
Proof.
  induction m as [|[k' z] m IH]; simpl; [by rewrite string_compare_refl|].
  destruct (String.compare k k') eqn:E; simpl; rewrite ?string_compare_refl, ?E; try done. by rewrite IH.
Qed.
Lemma tput_tput path a b m m1 : tput path a m = Ok (Some m1) → tput path b m1 = tput path b m.
Proof.
  revert m m1. induction path as [|k path IH]; intros m m1 H; [done|]. destruct path as [|k2 path].
  - cbn [tput] in *. simplify_eq. by rewrite mset_mset.
  - rewrite tput_cons in H. rewrite !tput_cons.
    destruct (mget k m) as [t|] eqn:Ek.
    + destruct t; simplify_eq.
      destruct (tput (k2 :: path) a m0) as [[m'|]|] eqn:E; simplify_eq.
      rewrite mget_mset_eq, (IH _ _ E). destruct (tput (k2 :: path) b m0) as [[]|]; [|done|done].
      by rewrite mset_mset.
    + destruct (tput (k2 :: path) a []) as [[m'|]|] eqn:E; simplify_eq.
      rewrite mget_mset_eq, (IH _ _ E). destruct (tput (k2 :: path) b []) as [[]|]; [|done|done].
      by rewrite mset_mset.
Qed.
Lemma tput_shape path a b m : 
  match tput path a m, tput path b m with
  | Panic, Panic => True | Ok None, Ok None => True | Ok (Some _), Ok (Some _) => True | _, _ => False
  end.
Proof.
  revert m. induction path as [|k path IH]; intros m; [done|]. destruct path as [|k2 path]; [done|].
  rewrite !tput_cons. destruct (mget k m) as [[]|]; try done.
  - specialize (IH m0). by repeat case_match; simplify_eq.
  - specialize (IH []). by repeat case_match; simplify_eq.
Qed.
Lemma tget_tput_panic path t m : path ≠ [] → tget path m = Panic → tput path t m = Panic.
Proof.
  revert m. induction path as [|k path IH]; intros m Hne H; [done|]. destruct path as [|k2 path].
  - cbn [tget] in H. destruct (mget k m) as [[]|]; done.
  - rewrite tput_cons. rewrite tget_cons in H. destruct (mget k m) as [[]|]; try done.
    rewrite IH; done.
Qed.
(** Storing: [spec_put] without the lookup. *)
Lemma spec_put_tput k path t m : t ≠ TNil →
  match spec_put true (k :: path) t m with
  | Panic => tput (k :: path) t m = Panic
  | Ok (m', r) =>
      match s_err r with
      | None => tput (k :: path) t m = Ok (Some m')
      | Some e => tput (k :: path) t m = Ok None ∧ m' = m ∧ e = errNotObject (k :: path)
      end
  end.
Proof.
  intros Hn. rewrite spec_put_eq by done. destruct (tget (k :: path) m) as [old|] eqn:E.
  - rewrite andb_false_r. destruct (tput (k :: path) t m) as [[m'|]|]; done.
  - by apply tget_tput_panic.
Qed.

(** ** Sortedness of what an event shows *)
Lemma msorted_keys {A B} (m : gomap A) (m' : gomap B) : mkeys m = mkeys m' → msorted m → msorted m'.
Proof.
  revert m'. induction m as [|[k x] m IH]; intros [|[k' x'] m'] E H; try done. simpl in E. injection E as -> E.
  destruct H as [H1 H2]. split; [|by apply IH]. rewrite Forall_forall in H1. apply Forall_forall. intros [k y] Hy.
  assert (k ∈ mkeys m) as Hk. { rewrite E. apply elem_of_list_fmap. by exists (k, y). }
  apply elem_of_list_fmap in Hk as ([k2 z] & -> & Hz). by apply (H1 _ Hz).
Qed.
Lemma rep_tsorted_all h :
  (∀ op t fp, rep h op t fp → tsorted t) ∧ (∀ ops ts fp, rep_list h ops ts fp → Forall tsorted ts) ∧
  (∀ gm m fp, rep_assoc h gm m fp → Forall (λ kv, tsorted kv.2) m).
Proof.
  apply rep_mutind; try done.
  - intros p v t Hp Ht. apply scalar_tree_scalar in Ht. by destruct t.
  - intros p v ops ts fps _ _ _ _ _ H. by apply tsorted_arr.
  - intros p v r gm m fps _ _ _ _ Hs Ha H. apply tsorted_obj. split; [|done].
    eapply msorted_keys; [|exact Hs]. symmetry. by eapply rep_assoc_keys.
  - intros. by constructor.
  - intros. by constructor.
Qed.
Lemma ev_rep_tsorted h e m fp : ev_rep h e m fp → tsorted (TObj m).
Proof.
  unfold ev_rep. destruct (fields e) as [r|].
  - intros (gm & fps & Hr & Hs & Ha & _). apply tsorted_obj. split.
    + eapply msorted_keys; [|exact Hs]. symmetry. by eapply rep_assoc_keys.
    + by eapply (proj2 (proj2 (rep_tsorted_all h))).
  - intros [-> _]. apply tsorted_obj. split; [done|constructor].
Qed.

(** ** One processor *)
Notation moves := (gmoves showing).
Notation steps_to := (gsteps_to showing).
Notation run_to := (grun_to showing).
Lemma showing_inc w i m fp id mt : showing w i m fp → showing (inc w id mt) i m fp.
Proof. done. Qed.

(** Getting a field. *)
Lemma get_step w pe i m fp key (k : option ptr → prog (option goerr)) :
  pe_data pe = Some i → showing w i m fp →
  match tget (keyToPath key) m with
  | Panic => run_prog (PGet key k) w pe = Panic
  | Ok o => ∃ h' op, run_prog (PGet key k) w pe = run_prog (k op) (set_heap w h') pe ∧
      moves w (set_heap w h') i fp m ∧ showing (set_heap w h') i m fp ∧
      match o with
      | None => op = None ∧ h' = w_heap w
      | Some t => ∃ p fpt, op = Some p ∧ rep h' (Some p) t fpt ∧ sublist fpt fp ∧
          (keyToPath key ≠ [] → h' = w_heap w ∧ ∃ e, w_events w !! i = Some e ∧ get_path h' e (keyToPath key) = Ok (h', Some p))
      end
  end.
Proof.
  intros Hpe (e & Hi & Hev). pose proof (get_path_ref (keyToPath key) (w_heap w) e m fp Hev) as G.
  cbn [run_prog]. rewrite (evt_of_eq w pe i e Hpe Hi). unfold Get.
  destruct (tget (keyToPath key) m) as [[t|]|].
  - destruct G as (h' & p & fpt & Hg & Hp & Hsub & Hst & Hh & _). rewrite Hg. exists h', (Some p). split; [done|].
    assert (showing (set_heap w h') i m fp) as Hsh.
    { exists e. split; [done|]. eapply ev_rep_frame; [exact Hev|exact Hst|auto]. }
    split; [unfold gmoves; split_and!; try done|split; [done|]].
    + exists fp. auto.
    + by eapply stable_weaken.
    + exists p, fpt. split_and!; try done. intros Hne. rewrite (Hh Hne) in *. split; [done|]. by exists e.
  - rewrite G. exists (w_heap w), None. split; [done|].
    assert (set_heap w (w_heap w) = w) as -> by (by destruct w).
    assert (showing w i m fp) as Hsh by (by exists e). split_and!; try done. by apply moves_refl.
  - by rewrite G.
Qed.

(** Storing a value disjoint from the event. *)
Lemma put_step w pe i m fp p t fpv key (k : option ptr → option goerr → prog (option goerr)) :
  pe_data pe = Some i → showing w i m fp → rep (w_heap w) (Some p) t fpv → NoDup (fp ++ fpv) →
  match spec_put true (keyToPath key) t m with
  | Panic => run_prog (PPut key (Some p) k) w pe = Panic
  | Ok (m', r) => ∃ w' old, run_prog (PPut key (Some p) k) w pe = run_prog (k old (s_err r)) w' pe ∧ 
      (∃ fp', showing w' i m' fp' ∧ ∀ l, l ∈ fp' → l ∈ fp ∨ l ∈ fpv ∨ EventRefine.fresh (w_heap w) l) ∧
      stable (w_heap w) (w_heap w') (λ l, l ∈ fp) ∧
      (∀ j, j ≠ i → w_events w' !! j = w_events w !! j) ∧ length (w_events w') = length (w_events w) ∧
      w_env w' = w_env w ∧ w_log w' = w_log w ∧
      (s_err r ≠ None → w' = w) ∧
      (s_err r = None → rep (w_heap w') (Some p) t fpv ∧
         ∃ e', w_events w' !! i = Some e' ∧ get_path (w_heap w') e' (keyToPath key) = Ok (w_heap w', Some p))
  end.
Proof.
  intros Hpe (e & Hi & Hev) Hr Hnd. pose proof (put_ref (w_heap w) e m fp p t fpv (keyToPath key) true Hev Hr Hnd) as G.
  cbn [run_prog]. rewrite (evt_of_eq w pe i e Hpe Hi). unfold Put.
  destruct (spec_put true (keyToPath key) t m) as [[m' r]|]; [|by rewrite G].
  destruct G as (pr & fp' & Hput & Herr & _ & Hev' & Hst & Hfp & Hf & Hg). rewrite Hput.
  assert (i < length (w_events w)) as Hlt by (by eapply lookup_lt_Some).
  exists (mkWorld (put_heap pr) (<[i:=put_event pr]> (w_events w)) (w_env w) (w_log w)), (put_old pr).
  rewrite Herr. split; [done|]. cbn [w_heap w_events w_env w_log]. split_and!; try done.
  - exists fp'. split; [|done]. exists (put_event pr). cbn [w_heap w_events]. by rewrite list_lookup_insert.
  - intros j Hj. by rewrite list_lookup_insert_ne.
  - by rewrite insert_length.
  - intros He. rewrite <- Herr in He. destruct (Hf He) as [-> ->]. rewrite list_insert_id by done. by destruct w.
  - intros He. rewrite <- Herr in He. destruct (Hg He) as [Hg1 Hg2]. split; [done|]. exists (put_event pr).
    by rewrite list_lookup_insert.
Qed.

(** Storing a plain value and returning the error. *)
Lemma put_plain w pe i m fp p t key : pe_data pe = Some i → showing w i m fp → rep (w_heap w) (Some p) t [] →
  steps_to (PPut key (Some p) (λ _ err, Ret err)) w pe i fp (store key t m).
Proof.
  intros Hpe Hs Hr. unfold store. rewrite <- keyToPath_spec.
  pose proof (put_step w pe i m fp p t [] key (λ _ err, Ret err) Hpe Hs Hr) as G.
  destruct (spec_put true (keyToPath key) t m) as [[m' r]|]; [|apply G].
  2:{ rewrite app_nil_r. destruct Hs as (e & _ & Hev). by eapply ev_rep_NoDup. }
  destruct G as (w' & old & Hrun & (fp' & Hsh & Hfp) & Hst & Hj & Hl & He & Hlg & _).
  { rewrite app_nil_r. destruct Hs as (e & _ & Hev). by eapply ev_rep_NoDup. }
  simpl. exists w'. split; [exact Hrun|]. split; [|done]. split_and!; try done.
  exists fp'. split; [done|]. intros l Hl'. destruct (Hfp l Hl') as [?|[?|?]]; [by left|set_solver|by right].
Qed.
Lemma alloc_step w pe i m fp v (k : ptr → prog (option goerr)) : showing w i m fp →
  let h' := (alloc_val (w_heap w) v).1 in let p := (alloc_val (w_heap w) v).2 in
  run_prog (PNew v k) w pe = run_prog (k p) (set_heap w h') pe ∧ showing (set_heap w h') i m fp ∧
  moves w (set_heap w h') i fp m ∧ hvals h' !! p = Some v ∧ (∀ W, stable (w_heap w) h' W) ∧ p = length (hvals (w_heap w)).
Proof.
  intros (e & Hi & Hev). cbv zeta.
  assert (∀ W, stable (w_heap w) (alloc_val (w_heap w) v).1 W) as Hst by (intros W; apply stable_alloc_val).
  assert (showing (set_heap w (alloc_val (w_heap w) v).1) i m fp) as Hs.
  { exists e. split; [done|]. eapply ev_rep_frame; [exact Hev|apply (Hst noW)|auto]. }
  split; [done|split; [done|]]. unfold gmoves. split_and!; try done.
  - exists fp. auto.
  - apply alloc_val_new.
Qed.
Lemma case_sem msg f field target w pe i m fp : pe_data pe = Some i → showing w i m fp →
  steps_to (case_process msg f (mkCase field target)) w pe i fp (change_case msg f field target m).
Proof.
  intros Hpe Hs. unfold case_process, change_case, PipeSpec.read. cbn [cs_field cs_target].
  match goal with |- context [PGet field ?k] => pose proof (get_step w pe i m fp field k Hpe Hs) as G end.
  rewrite <- keyToPath_spec. destruct (tget (keyToPath field) m) as [o|]; [|exact G].
  destruct G as (h' & op & Hrun & Hmv & Hsh & Ho). cbn [vbind].
  eapply steps_after; [exact Hrun|exact Hmv|done|]. clear Hrun. intros fp' Hs'.
  destruct o as [t|].
  2:{ destruct Ho as [-> _]. simpl. eexists. split; [done|]. split; [by apply moves_refl|done]. }
  destruct Ho as (p & fpt & -> & Hp & _). destruct (rep_deref _ _ _ _ Hp) as [v Hv].
  eapply (steps_after _ (if negb (N.eqb (v_type v) StringType) then Ret (Some (EMsg msg)) else
            PNew (mkString (f (v_str v))) (λ p, PPut (if String.eqb target "" then field else target) (Some p) (λ _ err, Ret err))) _ (set_heap w h'));
    [cbn [run_prog deref set_heap w_heap]; by rewrite Hv|by apply moves_refl|done|]. clear fp' Hs'. intros fp' Hs'.
  destruct (rep_type_string h' p t fpt v Hp Hv) as [[Hty ->]|[Hty Hns]].
  - rewrite Hty, N.eqb_refl. cbn [negb].
    destruct (alloc_step (set_heap w h') pe i m fp' (mkString (f (v_str v)))
      (λ p, PPut (if String.eqb target "" then field else target) (Some p) (λ _ err, Ret err)) Hs') as (E & Hs2 & Hm2 & Hv2 & _).
    eapply steps_after; [exact E|exact Hm2|done|]. intros fp2 Hs3.
    assert ((if String.eqb target "" then field else target) = (if decide (target = "") then field else target)) as ->.
    { destruct (String.eqb_spec target ""); [by rewrite decide_True|by rewrite decide_False]. }
    apply put_plain; [done|done|]. eapply rep_scalar; [exact Hv2|done].
  - rewrite (proj2 (N.eqb_neq _ _) Hty). cbn [negb].
    assert (steps_to (Ret (Some (EMsg msg))) (set_heap w h') pe i fp' (Gives (m, Some (EMsg msg)))) as H.
    { eexists. split; [reflexivity|]. split; [by apply moves_refl|done]. }
    destruct t; try exact H. by destruct (Hns s).
Qed.

(** Extending an array of the event in place is storing the longer array. *)
Lemma extend_sem c w pe i m fp p e t ts m' : showing w i m fp → keyToPath (ap_field c) ≠ [] →
  w_events w !! i = Some e → get_path (w_heap w) e (keyToPath (ap_field c)) = Ok (w_heap w, Some p) →
  tget (keyToPath (ap_field c)) m = Ok (Some t) → array_elems t = Some ts →
  tput (keyToPath (ap_field c)) (TArr (ts ++ [TStr (ap_value c)])) m = Ok (Some m') →
  steps_to (append_finish c p) w pe i fp (Gives (m', None)).
Proof.
  intros (e2 & Hi & Hev) Hne Hi2 Hg Htg He Hm'. assert (e2 = e) as -> by congruence. clear Hi2.
  pose proof (get_path_ref (keyToPath (ap_field c)) _ _ _ _ Hev) as G. rewrite Htg in G.
  destruct G as (h' & p2 & fpt & Hg2 & Hr & Hsub & _). rewrite Hg in Hg2. injection Hg2 as <- <-.
  pose proof (ev_rep_NoDup _ _ _ _ Hev) as Hnd. destruct (rep_deref _ _ _ _ Hr) as [v Hv].
  destruct (rep_type_array _ p t fpt v Hr Hv) as [(Hta & Hobj & ts2 & fps & He2 & Hls & -> & Hn1 & Hn2)|[Hta Hna]]; [|congruence].
  assert (NoDup (LArr p :: fps)) as Hnd2 by (by eapply NoDup_sublist).
  destruct (append_finish_run c w pe p v t (LArr p :: fps) Hv Hta Hr Hnd2)
    as (w' & ts' & Hrun & He' & Hr' & Hst' & E1 & E2 & E3).
  assert (ts' = ts) as -> by congruence.
  destruct (modify_in_place (w_heap w) e m fp p t (LArr p :: fps) (keyToPath (ap_field c))
              (w_heap w') (λ l, l = LArr p) (TArr (ts ++ [TStr (ap_value c)])) (LArr p :: fps) m')
    as (fp' & Hev2 & Hin & _); try done.
  { by eapply ev_rep_tsorted. }
  { intros l ->. right. apply elem_of_cons. by left. }
  { intros l Hl'. by left. }
  exists w'. split; [exact Hrun|]. split; [|done]. split_and!.
  - exists fp'. split; [exists e; by rewrite E1|]. intros l Hl. left. destruct (Hin _ Hl) as [?|?]; [done|by eapply sublist_elem].
  - eapply stable_weaken; [exact Hst'|]. intros l ->. eapply sublist_elem; [exact Hsub|]. apply elem_of_cons. by left.
  - intros j Hj. by rewrite E1.
  - by rewrite E1.
  - done.
Qed.
(** Extending an array nothing refers to. *)
Lemma lost w pe i m fp q h1 field value c t v : showing w i m fp → (∀ W, stable (w_heap w) h1 W) → EventRefine.fresh (w_heap w) (LArr q) →
  hvals h1 !! q = Some v → v_type v = ArrayType → rep h1 (Some q) t [LArr q] →
  run_prog c w pe = run_prog (append_finish (mkAppend field value) q) (set_heap w h1) pe →
  steps_to c w pe i fp (Gives (m, None)).
Proof.
  intros (e & Hi & Hev) Hst Hq Hv Hty Hrq E.
  destruct (append_finish_run (mkAppend field value) (set_heap w h1) pe q v t [LArr q])
    as (w' & ts & Hrun & He & Hr' & Hst' & E1 & E2 & E3); try done.
  { apply NoDup_singleton. }
  cbn [set_heap w_heap w_events w_env w_log] in *.
  assert (stable (w_heap w) (w_heap w') noW) as Hstw.
  { eapply stable_trans_fresh; [apply (Hst noW)|exact Hst'|]. intros l ->. by right. }
  exists w'. split; [rewrite E; exact Hrun|]. split; [|done].
  unfold gmoves. cbn [set_heap w_heap w_events w_env w_log]. split_and!.
  - exists fp. split; [|auto]. exists e. rewrite E1. split; [done|].
    eapply ev_rep_frame; [exact Hev|exact Hstw|auto].
  - eapply stable_weaken; [exact Hstw|]. done.
  - intros j Hj. by rewrite E1.
  - by rewrite E1.
  - done.
Qed.
Lemma append_sem field value w pe i m fp : pe_data pe = Some i → showing w i m fp →
  steps_to (append_process (mkAppend field value)) w pe i fp (sem (BAppend field value) m).
Proof.
  intros Hpe Hs. rewrite append_process_eq. cbn [sem ap_field ap_value]. unfold PipeSpec.read.
  match goal with |- context [PGet field ?k] => pose proof (get_step w pe i m fp field k Hpe Hs) as G end.
  rewrite <- keyToPath_spec. destruct (tget (keyToPath field) m) as [o|] eqn:Eg; [|exact G].
  destruct G as (h' & op & Hrun & Hmv & Hsh & Ho). cbn [vbind].
  eapply steps_after; [exact Hrun|exact Hmv|done|]. clear Hrun. intros fp' Hs'.
  destruct o as [t|].
  - destruct Ho as (p & fpt & -> & Hp & Hsub & Hpos). destruct (rep_deref _ _ _ _ Hp) as [v Hv].
    eapply (steps_after _ (if N.eqb (v_type v) StringType then PNew (mkArray [Some p]) (append_finish (mkAppend field value))
          else if negb (N.eqb (v_type v) ArrayType) then Ret (Some (EMsg "value to append to is not array"))
               else append_finish (mkAppend field value) p) _ (set_heap w h'));
      [cbn [run_prog deref set_heap w_heap]; by rewrite Hv|by apply moves_refl|done|]. clear fp' Hs'. intros fp' Hs'.
    destruct (rep_type_string h' p t fpt v Hp Hv) as [[Hty ->]|[Hty Hns]].
    + rewrite Hty, N.eqb_refl.
      destruct (alloc_step (set_heap w h') pe i m fp' (mkArray [Some p]) (append_finish (mkAppend field value)) Hs')
        as (E & _ & _ & Hv2 & Hst & Hq). cbn [set_heap w_heap] in *.
      set (q := (alloc_val h' (mkArray [Some p])).2) in *. set (h1 := (alloc_val h' (mkArray [Some p])).1) in *.
      assert (fpt = []) as -> by (inversion Hp; simplify_eq; done).
      assert (rep h1 (Some q) (TArr [TStr (v_str v)]) [LArr q]) as Hrq.
      { eapply (rep_arr h1 q (mkArray [Some p]) [Some p] _ []); try done.
        apply (rep_list_cons h1 (Some p) [] _ [] [] []); [|constructor]. eapply rep_frame; [done|apply (Hst noW)|auto]. }
      eapply (lost (set_heap w h') pe i m fp' q h1 field value); try done; [simpl; by rewrite Hq].
    + rewrite (proj2 (N.eqb_neq _ _) Hty).
      destruct (rep_type_array h' p t fpt v Hp Hv) as [(Hta & Hobj & ts & fps & He & Hls & _)|[Hta Hna]].
      * rewrite Hta, N.eqb_refl. cbn [negb].
        assert (keyToPath field ≠ []) as Hne. { intros E. rewrite E in Eg. cbn [tget] in Eg. destruct m; simplify_eq. }
        destruct (Hpos Hne) as (-> & e & Hi & Hg). pose proof (tget_lookup _ _ _ Hne Eg) as Hl.
        destruct (tput_exists _ (TArr (ts ++ [TStr value])) _ _ Hne Hl) as [m' Hm'].
        assert (store field (TArr (ts ++ [TStr value])) m = Gives (m', None)) as Hst.
        { unfold store. rewrite <- keyToPath_spec. destruct (keyToPath field) as [|k path]; [done|].
          pose proof (spec_put_tput k path (TArr (ts ++ [TStr value])) m) as G.
          destruct (spec_put _ _ _ _) as [[m2 r]|]; [|rewrite Hm' in G; by discriminate G].
          destruct (s_err r) eqn:Er; [destruct G as (G & _); [done|congruence]|]. rewrite Hm' in G.
          assert (m' = m2) as -> by (by injection (G ltac:(done))). by simpl. }
        pose proof (extend_sem (mkAppend field value) (set_heap w (w_heap w)) pe i m fp' p e t ts m' Hs' Hne Hi Hg Eg He Hm') as G.
        destruct t; try done; simpl in He; simplify_eq; rewrite ?app_nil_l in Hst; by rewrite Hst.
      * rewrite (proj2 (N.eqb_neq _ _) Hta). cbn [negb].
        assert (steps_to (Ret (Some (EMsg "value to append to is not array"))) (set_heap w h') pe i fp'
          (Gives (m, Some (EMsg "value to append to is not array")))) as H.
        { eexists. split; [reflexivity|]. split; [by apply moves_refl|done]. }
        destruct t; try exact H; try done. by destruct (Hns s).
  - destruct Ho as [-> ->]. assert (set_heap w (w_heap w) = w) as E by (by destruct w). rewrite E in *. clear E Hsh Hmv.
    destruct (alloc_step w pe i m fp' (mkArray []) (λ p, PPut field (Some p) (λ _ _, append_finish (mkAppend field value) p)) Hs')
      as (E & Hs2 & _ & Hv2 & Hst & Hq).
    set (q := (alloc_val (w_heap w) (mkArray [])).2) in *. set (h1 := (alloc_val (w_heap w) (mkArray [])).1) in *.
    assert (rep h1 (Some q) TNilArr [LArr q]) as Hrq by (by eapply rep_nilarr).
    assert (EventRefine.fresh (w_heap w) (LArr q)) as Hqf by (simpl; by rewrite Hq).
    assert (NoDup (fp' ++ [LArr q])) as Hnd.
    { destruct Hs' as (e' & Hi' & Hev'). apply NoDup_app. split_and!; [by eapply ev_rep_NoDup| |apply NoDup_singleton].
      intros l Hl Hl2. apply elem_of_list_singleton in Hl2 as ->. apply (ev_rep_alloc _ _ _ _ _ Hev') in Hl. simpl in Hl, Hqf. lia. }
    pose proof (put_step (set_heap w h1) pe i m fp' q TNilArr [LArr q] field (λ _ _, append_finish (mkAppend field value) q) Hpe Hs2 Hrq Hnd) as G.
    unfold store. rewrite <- keyToPath_spec. destruct (keyToPath field) as [|k path] eqn:Ek.
    + cbn [spec_put] in G |- *. destruct G as (w2 & old & Hrun & _ & _ & _ & _ & _ & _ & Hw & _).
      rewrite Hw in Hrun by done. cbn [vbind]. eapply (lost w pe i m fp' q h1 field value); done.
    + pose proof (spec_put_tput k path TNilArr m) as G1. pose proof (spec_put_tput k path (TArr [TStr value]) m) as G2.
      pose proof (tput_shape (k :: path) TNilArr (TArr [TStr value]) m) as Hsame.
      destruct (spec_put true (k :: path) TNilArr m) as [[m1 r1]|].
      2:{ rewrite G1 in Hsame by done. destruct (spec_put true (k :: path) (TArr [TStr value]) m) as [[m2 r2]|].
          - destruct (s_err r2); [destruct G2 as (G2 & _); [done|]; by rewrite G2 in Hsame|rewrite G2 in Hsame by done; done].
          - cbn [vbind gsteps_to]. by rewrite E. }
      destruct G as (w2 & old & Hrun & (fp2 & Hsh2 & Hfp2) & Hst2 & Hj & Hl & Henv & Hlg & Hfail & Hsucc).
      destruct (s_err r1) as [e1|] eqn:Er1.
      * destruct G1 as (G1 & -> & _); [done|]. rewrite G1 in Hsame.
        destruct (spec_put true (k :: path) (TArr [TStr value]) m) as [[m2 r2]|]; [|rewrite G2 in Hsame by done; done].
        destruct (s_err r2) as [e2|] eqn:Er2; [|rewrite G2 in Hsame by done; done]. destruct G2 as (_ & -> & _); [done|].
        cbn [vbind]. rewrite Hfail in Hrun by done. eapply (lost w pe i m fp' q h1 field value); done.
      * specialize (G1 ltac:(done)). rewrite G1 in Hsame. destruct (Hsucc eq_refl) as (Hr2 & e2 & Hi2 & Hg2).
        destruct (spec_put true (k :: path) (TArr [TStr value]) m) as [[m2 r2]|]; [|rewrite G2 in Hsame by done; done].
        destruct (s_err r2) as [e3|] eqn:Er2; [destruct G2 as (G2 & _); [done|]; by rewrite G2 in Hsame|].
        specialize (G2 ltac:(done)). cbn [vbind].
        eapply steps_after; [rewrite E; exact Hrun| |done|].
        -- unfold gmoves. cbn [set_heap w_heap w_events w_env w_log] in *. split_and!; try done.
           ++ exists fp2. split; [done|]. intros l Hl'. destruct (Hfp2 _ Hl') as [?|[Hin|Hf]]; [by left| |].
              ** apply elem_of_list_singleton in Hin as ->. by right.
              ** right. eapply fresh_back; [apply (Hst noW)|done].
           ++ eapply stable_trans_fresh; [apply Hst|exact Hst2|]. auto.
        -- intros fp3 Hs3. rewrite <- Ek in Hg2, G1, G2. eapply (extend_sem (mkAppend field value) w2 pe i m1 fp3 q e2 TNilArr []); try done.
           ++ cbn [ap_field]. by rewrite Ek.
           ++ destruct Hs3 as (e3 & Hi3 & Hev3). assert (e3 = e2) as -> by congruence.
              pose proof (get_path_ref (keyToPath field) _ _ _ _ Hev3) as G. cbn [ap_field].
              destruct (tget (keyToPath field) m1) as [[t|]|].
              ** destruct G as (h3 & p3 & fpt & Hg3 & Hp3 & _). rewrite Hg2 in Hg3. injection Hg3 as <- <-.
                 by destruct (proj1 (rep_fun_all _) _ _ _ Hp3 _ _ Hr2) as [-> _].
              ** congruence.
              ** congruence.
           ++ cbn [ap_field ap_value]. rewrite app_nil_l, <- G2. by eapply tput_tput.
Qed.

Lemma set_sem target t from p w pe i m fp : pe_data pe = Some i → showing w i m fp → holds (w_heap w) p t → t ≠ TNull →
  steps_to (set_process (mkSet from target p)) w pe i fp (store target t m).
Proof.
  intros Hpe Hs (v & Hv & Ht) Hnn. unfold set_process. cbn [se_value se_target se_copy_from].
  eapply (steps_after _ (PPut target (Some p) (λ _ err, Ret err)) w w); [|by apply moves_refl|done|].
  - cbn [run_prog deref]. rewrite Hv. destruct (N.eqb (v_type v) NullType) eqn:E; [|done].
    unfold scalar_tree in Ht. rewrite E in Ht. destruct (v_obj v); simplify_eq.
  - intros fp' Hs'. apply put_plain; [done|done|]. by eapply rep_scalar.
Qed.
Lemma null_type v : scalar_tree v = Some TNull → N.eqb (v_type v) NullType = true.
Proof. unfold scalar_tree. destruct (v_obj v); [done|]. destruct (N.eqb (v_type v) NullType); [done|]. by repeat case_match. Qed.
Lemma rep_leaf h p t fp : rep h (Some p) t fp → container t = false → fp = [].
Proof. inversion 1; by simplify_eq. Qed.
Lemma copy_sem target from p w pe i m fp : pe_data pe = Some i → showing w i m fp → holds (w_heap w) p TNull → from ≠ "" →
  steps_to (set_process (mkSet from target p)) w pe i fp (sem (BCopy from target) m).
Proof.
  intros Hpe Hs (v & Hv & Ht) Hnn. unfold set_process. cbn [se_value se_target se_copy_from sem].
  set (k := λ v, match v with None => Ret (Some (EKeyMissing from)) | Some _ => PPut target v (λ _ err, Ret err) end).
  eapply (steps_after _ (PGet from k) w w); [|by apply moves_refl|done|].
  { cbn [run_prog deref]. rewrite Hv, (null_type _ Ht), (proj2 (String.eqb_neq _ _) Hnn). done. }
  clear fp Hs. intros fp Hs. unfold PipeSpec.read. rewrite <- keyToPath_spec.
  pose proof (get_step w pe i m fp from k Hpe Hs) as G. destruct (tget (keyToPath from) m) as [o|]; [|exact G].
  destruct G as (h' & op & Hrun & Hmv & Hsh & Ho). cbn [vbind].
  eapply steps_after; [exact Hrun|exact Hmv|done|]. clear Hrun. intros fp' Hs'.
  destruct o as [t|].
  2:{ destruct Ho as [-> _]. simpl. eexists. split; [done|]. split; [by apply moves_refl|done]. }
  destruct Ho as (q & fpt & -> & Hq & _). destruct (container t) eqn:Ec; [done|].
  rewrite (rep_leaf _ _ _ _ Hq Ec) in Hq. unfold k. by apply put_plain.
Qed.
Lemma nothing_sem target p w pe i m fp : pe_data pe = Some i → showing w i m fp → holds (w_heap w) p TNull →
  steps_to (set_process (mkSet "" target p)) w pe i fp (sem (BSetNothing target) m).
Proof.
  intros Hpe Hs (v & Hv & Ht). unfold set_process. cbn [se_value se_target se_copy_from sem].
  exists w. cbn [run_prog deref]. rewrite Hv, (null_type _ Ht), String.eqb_refl. cbn [negb run_prog].
  destruct Hs as (e & Hi & Hev). rewrite (evt_of_eq w pe i e Hpe Hi). unfold Put. rewrite <- keyToPath_spec.
  assert (mkWorld (w_heap w) (<[i:=e]> (w_events w)) (w_env w) (w_log w) = w) as Hw by (rewrite list_insert_id by done; by destruct w).
  split; [|split; [apply moves_refl; by exists e|done]].
  destruct (keyToPath target) as [|k path] eqn:Ek; cbn [put put_heap put_event put_err put_old run_prog]; by rewrite Hw.
Qed.
Lemma conf_sem b c w pe i m fp : runs_as (w_heap w) b c → pe_data pe = Some i → showing w i m fp →
  steps_to c w pe i fp (sem b m).
Proof.
  intros Hr Hpe Hs. destruct Hr.
  - by apply case_sem.
  - by apply case_sem.
  - by apply append_sem.
  - by apply set_sem.
  - by apply copy_sem.
  - by apply nothing_sem.
  - exists w. split; [done|]. split; [by apply moves_refl|done].
  - exists w. split; [done|]. split; [by apply moves_refl|done].
Qed.

(** ** A pipeline *)
Lemma pipe_sem b pl w pe i m fp : pipe_as (w_heap w) b pl → pe_data pe = Some i → pe_dropped pe = false →
  showing w i m fp → run_to (pl_process pl w pe) w pe i fp (sem_pipe b m).
Proof. exact (gpipe_sem sem showing showing_inc conf_sem b pl w pe i m fp). Qed.

(** ** What running keeps *)
Section keeps.
Context (C : Prop) (I : gomap tree → Prop) (V : tree → Prop).
Context (V_str : ∀ s, V (TStr s)).
Context (V_get : ∀ m path, I m → match tget path m with Panic => C | Ok o => ∀ t, o = Some t → V t end).
Context (V_app : ∀ l s, V (TArr l) → V (TArr (l ++ [TStr s]))).
Context (I_put : ∀ m path t, I m → V t → match tput path t m with Panic => C | Ok o => ∀ m', o = Some m' → I m' end).
Context (V_empty : V (TArr [])) (V_nil : ∀ t, V t → t ≠ TNil).
Definition fine_conf (b : bconf) : Prop := match b with BSet _ t => V t | _ => True end.
Lemma store_keeps key t m : I m → V t → fineC C (store key t m) (λ '(m', _), I m').
Proof.
  intros Hm Ht. unfold store. destruct (spec_path key) as [|k path]; [done|].
  pose proof (spec_put_tput k path t m (V_nil _ Ht)) as G. pose proof (I_put m (k :: path) t Hm Ht) as Hk.
  destruct (spec_put true (k :: path) t m) as [[m' r]|]; [|by rewrite G in Hk]. simpl.
  destruct (s_err r); [by destruct G as (_ & -> & _)|]. rewrite G in Hk. by apply Hk.
Qed.
Lemma read_keeps key m : I m → fineC C (PipeSpec.read key m) (λ o, ∀ t, o = Some t → V t).
Proof. intros Hm. unfold PipeSpec.read. pose proof (V_get m (spec_path key) Hm) as H. by destruct (tget (spec_path key) m). Qed.
Lemma case_keeps msg f field target m : I m → fineC C (change_case msg f field target m) (λ '(m', _), I m').
Proof.
  intros Hm. unfold change_case. pose proof (read_keeps field m Hm) as G.
  destruct (PipeSpec.read field m) as [o| |]; [|done|done]. cbn [vbind]. destruct o as [t|]; [|done]. destruct t; try done.
  by apply store_keeps.
Qed.
Lemma sem_keeps b m : fine_conf b → I m → fineC C (sem b m) (λ '(m', _), I m').
Proof.
  intros Hb Hm. destruct b as [f field target|f field target|field value|target t|from target|target|l|]; cbn [sem].
  - by apply case_keeps.
  - by apply case_keeps.
  - pose proof (read_keeps field m Hm) as G. destruct (PipeSpec.read field m) as [o| |]; [|done|done]. cbn [vbind].
    assert (V (TArr [TStr value])) as H1 by (apply (V_app [] value V_empty)).
    destruct o as [t|].
    + destruct t; try done; apply store_keeps; try done. apply V_app. by apply G.
    + pose proof (store_keeps field (TArr [TStr value]) m Hm H1) as H. destruct (store _ _ _) as [[m' err]| |]; done.
  - by apply store_keeps.
  - pose proof (read_keeps from m Hm) as G. destruct (PipeSpec.read from m) as [o| |]; [|done|done]. cbn [vbind].
    destruct o as [t|]; [|done]. destruct (container t); [done|]. apply store_keeps; [done|]. by apply G.
  - done.
  - done.
  - done.
Qed.
Lemma sem_pipe_keeps b : Forall fine_conf (pipe_confs b) → ∀ m, I m → fineC C (sem_pipe b m) (λ '(m', _, _), I m').
Proof using All. apply (run_pipe_keeps sem C I fine_conf). exact sem_keeps. Qed.
End keeps.

Lemma clean_keeps b : Forall (fine_conf tclean) (pipe_confs b) → ∀ m, mclean m → fine (sem_pipe b m) (λ '(m', _, _), mclean m').
Proof.
  apply sem_pipe_keeps.
  - done.
  - intros m path Hm. by destruct (tget_clean_ok path m Hm) as (o & -> & H).
  - intros l s H. apply tclean_arr in H. apply tclean_arr, Forall_app. split; [done|]. by repeat constructor.
  - intros m path t Hm Ht. by destruct (tput_clean path t m Hm Ht) as (o & -> & H).
  - done.
  - by apply tclean_not_nil.
Qed.

(** Without copies nothing is shared. *)
Definition no_copy (b : bconf) : Prop := match b with BCopy _ _ => False | _ => True end.
Lemma store_shares key t m : store key t m ≠ Shares.
Proof. unfold store. by destruct (spec_put _ _ _ _) as [[]|]. Qed.
Lemma read_shares key m : PipeSpec.read key m ≠ Shares.
Proof. unfold PipeSpec.read. by destruct (tget _ _). Qed.
Lemma sem_shares b m : no_copy b → sem b m ≠ Shares.
Proof.
  intros Hb. pose proof store_shares as Hst. pose proof read_shares as Hrd.
  destruct b as [f field target|f field target|field value|target t|from target|target|l|]; cbn [sem]; try done;
    unfold change_case.
  1-3: destruct (PipeSpec.read field m) as [o| |] eqn:E; [|done|by apply Hrd in E]; cbn [vbind]; destruct o as [t|]; try done.
  - destruct t; done.
  - destruct t; done.
  - destruct t; done.
  - destruct (store field _ m) as [[]| |] eqn:E2; try done. by apply Hst in E2.
Qed.
Lemma sem_pipe_shares b : Forall no_copy (pipe_confs b) → ∀ m, sem_pipe b m ≠ Shares.
Proof. apply run_pipe_shares. exact sem_shares. Qed.

(** The values of a pipeline that exists are plain, so clean. *)
Lemma holds_clean h p t : holds h p t → tclean t.
Proof. intros (v & _ & H). apply scalar_tree_scalar in H. by destruct t. Qed.
Lemma runs_as_clean h b c : runs_as h b c → fine_conf tclean b.
Proof. intros H. destruct H; try done. by eapply holds_clean. Qed.
Lemma built_as_clean h b : ∀ p, built_as h b p → Forall (fine_conf tclean) (confs b).
Proof.
  induction b as [id ignf ignm onf c IH] using bproc_ind'. intros p H. inversion H as [? cond ? ? ? onf' ? c' Hr Hf]; subst.
  cbn [confs]. apply List.Forall_cons; [by eapply runs_as_clean|]. clear -IH Hf. revert onf' Hf.
  induction IH as [|b l Hb _ IHl]; intros onf' Hf; [by apply List.Forall_nil|]. inversion Hf; subst. cbn [map concat].
  apply Forall_app. split; [by eapply Hb|by eapply IHl].
Qed.
Lemma all_clean h lb lp : Forall2 (built_as h) lb lp → Forall (fine_conf tclean) (concat (map confs lb)).
Proof.
  induction 1 as [|b p lb lp Hb _ IH]; [by apply List.Forall_nil|]. cbn [map concat]. apply Forall_app.
  split; [by eapply built_as_clean|done].
Qed.
Lemma pipe_as_clean h b pl : pipe_as h b pl → Forall (fine_conf tclean) (pipe_confs b).
Proof. intros [H1 H2]. apply Forall_app. split; by eapply all_clean. Qed.

