(** * Pipelines of built-in processors do what ShareSpec.v says: proofs. *)
From Verif Require Export ShareRel.
From Verif Require Import PipeSem.
From Coq Require Import Lia.

(** Event [e] is [G], the numbers standing for [names]. *)
Definition root_ok (h : heap) (e : event) (G : graph) (names : list loc) : Prop :=
  match g_root G with
  | Some n => ∃ r, fields e = Some r ∧ names !! n = Some (LMap r)
  | None => fields e = None ∨ ∃ r, fields e = Some r ∧ hmaps h !! r = Some [] ∧ LMap r ∉ names
  end.
Definition state (h : heap) (e : event) (G : graph) (names : list loc) : Prop := pic h names (g_boxes G) ∧ root_ok h e G names.
(** The places the event owns. *)
Definition own (e : event) (names : list loc) (l : loc) : Prop := l ∈ names ∨ ∃ r, fields e = Some r ∧ l = LMap r.
Definition drawn (w : world) (i : nat) (G : graph) (fp : list loc) : Prop :=
  ∃ e names, w_events w !! i = Some e ∧ state (w_heap w) e G names ∧ ∀ l, own e names l → l ∈ fp.

Lemma state_frame h h' e G names : state h e G names → stays h h' → stable h h' noW → state h' e G names.
Proof.
  intros [Hp Hr] Hst (Hv & Hm & _). assert (∀ l, l ∈ names → same_at h h' l) as Hsame.
  { intros [r|p] Hl; apply (pic_allocated _ _ _ _ Hp) in Hl; simpl in *.
    - destruct (lookup_lt_is_Some_2 _ _ Hl) as [gm Hg]. rewrite Hg. by destruct (Hm _ _ Hg) as [?|[]].
    - destruct (lookup_lt_is_Some_2 _ _ Hl) as [v Hg]. rewrite Hg. by destruct (Hv _ _ Hg) as [?|[[] _]]. }
  split; [by eapply pic_stays|]. unfold root_ok in *. destruct (g_root G) as [n|]; [done|].
  destruct Hr as [Hr|(r & Hr & Hg & Hn)]; [by left|right]. exists r. split; [done|]. split; [|done]. by destruct (Hm _ _ Hg) as [?|[]].
Qed.
Lemma state_map_empty h e G names : state h e G names →
  map_of h (fields e) = [] ↔ match g_root G with None => True | Some n => entries (g_boxes G) n = [] end.
Proof.
  intros [Hp Hr]. unfold root_ok in Hr. destruct (g_root G) as [n|].
  - destruct Hr as (r & -> & Hn). destruct (pic_map _ _ _ _ _ Hp Hn) as (gm & Hg & _ & _ & Hm). cbn [map_of]. rewrite Hg.
    symmetry. by eapply entries_nil.
  - split; [done|]. intros _. destruct Hr as [->|(r & -> & Hg & _)]; [done|]. cbn [map_of]. by rewrite Hg.
Qed.
Lemma gread_ref h e G names key : state h e G names →
  match gread key G with
  | Shares => False
  | Crashes => Get h e key = Panic
  | Gives o => ∃ h' op, Get h e key = Ok (h', op) ∧ stays h h' ∧ stable h h' noW ∧
      match o with None => op = None | Some x => op ≠ None ∧ item_at h' names op x end
  end.
Proof.
  intros Hs. pose proof (state_map_empty _ _ _ _ Hs) as He. destruct Hs as [Hp Hr]. unfold root_ok in Hr.
  unfold gread, Get, get_path. rewrite <- keyToPath_spec. destruct (g_root G) as [n|].
  - destruct Hr as (r & Hf & Hn). destruct (decide (entries (g_boxes G) n = [])) as [E|E].
    + rewrite (proj2 He E). exists h, None. split_and!; [done|apply stays_refl|apply stable_refl|done].
    + destruct (map_of h (fields e)) as [|a l] eqn:Em; [by destruct E; apply He|]. clear Em He a l.
      destruct (keyToPath key) as [|k path].
      * cbn [follow]. exists (alloc_val h (mkObject (fields e))).1, (Some (length (hvals h))). split_and!; [done|apply stays_alloc|apply stable_alloc_val|done|].
        eapply (ia_obj _ _ _ (mkObject (fields e)) r); [|done|done|done]. simpl. rewrite lookup_app_r by done. by rewrite Nat.sub_diag.
      * pose proof (follow_ref h names _ (k :: path) n r Hp Hn ltac:(done)) as G'. rewrite Hf.
        destruct (follow (k :: path) n (g_boxes G)) as [o|]; [|by rewrite G']. destruct G' as (op & -> & Ho).
        exists h, op. split_and!; [done|apply stays_refl|apply stable_refl|done].
  - rewrite (proj2 He I). exists h, None. split_and!; [done|apply stays_refl|apply stable_refl|done].
Qed.
Lemma follow_place path n x bs : path ≠ [] → follow path n bs = Panic → place path n x bs = Panic.
Proof.
  revert n. induction path as [|k path IH]; intros n Hne H; [done|]. destruct path as [|k2 path].
  - cbn [follow] in H. destruct (mget k (entries bs n)) as [[[]| |]|]; done.
  - rewrite place_cons. assert (follow (k :: k2 :: path) n bs = match mget k (entries bs n) with
      | None => Ok None | Some (IPlain TNil) => Panic | Some (IObj n') => follow (k2 :: path) n' bs | Some _ => Ok None end) as E.
    { cbn [follow]. destruct (mget k (entries bs n)) as [[[]| |]|]; done. }
    rewrite E in H. destruct (mget k (entries bs n)) as [[[]| |n']|]; try done. by apply IH.
Qed.
Lemma gstore_ref h e G names key p x : state h e G names → item_at h names (Some p) x →
  match gstore key x G with
  | Shares => False
  | Crashes => Put h e key (Some p) = Panic
  | Gives (G', err) => ∃ pr extra, Put h e key (Some p) = Ok pr ∧ put_err pr = err ∧
      state (put_heap pr) (put_event pr) G' (names ++ extra) ∧ stays h (put_heap pr) ∧
      stable h (put_heap pr) (own e names) ∧
      (∀ l, own (put_event pr) (names ++ extra) l → own e names l ∨ EventRefine.fresh h l)
  end.
Proof.
  intros Hs Hx. unfold gstore. rewrite <- keyToPath_spec. unfold Put. destruct (keyToPath key) as [|k path].
  { rewrite decide_True by done. eexists _, []. cbn [put]. split; [done|]. rewrite app_nil_r. split_and!; cbn; [done|done|apply stays_refl|apply stable_refl|by left]. }
  rewrite decide_False by done. cbn [put].
  (* the root *)
  assert (∃ h1 e1 names1 r, match fields e with None => let '(h1, r) := alloc_map h in (h1, mkEvent (Some r)) | Some _ => (h, e) end = (h1, e1) ∧
    state h1 e1 (rooted G).1 names1 ∧ g_root (rooted G).1 = Some (rooted G).2 ∧ fields e1 = Some r ∧ names1 !! (rooted G).2 = Some (LMap r) ∧
    (∃ extra, names1 = names ++ extra) ∧ stays h h1 ∧ stable h h1 noW ∧ ∀ l, own e1 names1 l → own e names l ∨ EventRefine.fresh h l)
    as (h1 & e1 & names1 & r & -> & Hs1 & Hg1 & Hf1 & Hn1 & (extra1 & En1) & Hst1 & Hsb1 & Hown1).
  { destruct Hs as [Hp Hr]. unfold root_ok in Hr. unfold rooted. destruct (g_root G) as [n|] eqn:Eg.
    - destruct Hr as (r & Hf & Hn). rewrite Hf. exists h, e, names, r. cbn [fst snd]. split_and!; try done.
      + split; [done|]. unfold root_ok. rewrite Eg. by exists r.
      + exists []. by rewrite app_nil_r.
      + apply stays_refl.
      + apply stable_refl.
      + by left.
    - destruct Hr as [Hf|(r & Hf & Hg & Hn)].
      + rewrite Hf. set (r := length (hmaps h)). set (h1 := (alloc_map h).1).
        assert (stays h h1) as Hst by (by apply stays_vals).
        assert (pic h1 (names ++ [LMap r]) (g_boxes G ++ [BxObj []])) as Hp1.
        { eapply pic_grow; [exact Hp|exact Hst|eapply pic_fresh_NoDup; [exact Hp|simpl; done]| |].
          - intros [r'|p'] Hl; apply (pic_allocated _ _ _ _ Hp) in Hl; simpl in Hl |- *; [by rewrite lookup_app_l|done].
          - apply Forall2_cons. split; [|constructor]. apply (ba_obj _ _ _ []); [|done|constructor]. simpl. rewrite lookup_app_r by done. by rewrite Nat.sub_diag. }
        assert ((names ++ [LMap r]) !! length (g_boxes G) = Some (LMap r)) as Hnew.
        { rewrite (pic_length _ _ _ Hp), lookup_app_r by done. by rewrite Nat.sub_diag. }
        exists h1, (mkEvent (Some r)), (names ++ [LMap r]), r. cbn [fst snd g_root]. split_and!; try done.
        * split; [done|]. by exists r.
        * by eexists.
        * apply (stable_alloc_map h).
        * intros l [Hl|(r' & [= <-] & ->)]; [|right; simpl; done]. apply elem_of_app in Hl as [Hl|Hl]; [by left; left|].
          apply elem_of_list_singleton in Hl as ->. right. simpl. done.
      + rewrite Hf. assert (pic h (names ++ [LMap r]) (g_boxes G ++ [BxObj []])) as Hp1.
        { eapply pic_grow; [exact Hp|apply stays_refl| | |].
          - apply NoDup_app. split_and!; [apply Hp| |apply NoDup_singleton]. by intros l Hl ->%elem_of_list_singleton.
          - by intros [] _.
          - apply Forall2_cons. split; [|constructor]. by apply (ba_obj _ _ _ []); [|done|constructor]. }
        assert ((names ++ [LMap r]) !! length (g_boxes G) = Some (LMap r)) as Hnew.
        { rewrite (pic_length _ _ _ Hp), lookup_app_r by done. by rewrite Nat.sub_diag. }
        exists h, e, (names ++ [LMap r]), r. cbn [fst snd g_root]. split_and!; try done.
        * split; [done|]. by exists r.
        * by eexists.
        * apply stays_refl.
        * apply stable_refl.
        * intros l [Hl|(r' & E & ->)]; [|left; right; eauto]. apply elem_of_app in Hl as [Hl|Hl]; [by left; left|].
          apply elem_of_list_singleton in Hl as ->. left. right. eauto. }
  destruct (rooted G) as [G1 n] eqn:ER. cbn [fst snd] in *.
  assert (item_at h1 names1 (Some p) x) as Hx1 by (eapply item_at_mono; [exact Hst1|rewrite En1; by eexists|done]).
  pose proof Hs1 as [Hp1 _].
  pose proof (place_ref (k :: path) (k :: path) ltac:(done) h1 names1 _ n r p x Hp1 Hn1 Hx1) as HP.
  assert (place (k :: path) n x (g_boxes G1) ≠ Panic → ∃ old, get_path h1 e1 (k :: path) = Ok (h1, old)) as Hget.
  { intros Hpl. unfold get_path. destruct (map_of h1 (fields e1)) as [|a l]; [by eexists|]. rewrite Hf1.
    pose proof (follow_ref h1 names1 _ (k :: path) n r Hp1 Hn1 ltac:(done)) as HF.
    destruct (follow (k :: path) n (g_boxes G1)) as [o|] eqn:EF; [|by apply (follow_place _ _ x) in EF].
    destruct HF as (op & -> & _). by eexists. }
  assert (get_path h1 e1 (k :: path) = Panic ∨ ∃ old, get_path h1 e1 (k :: path) = Ok (h1, old)) as Hget2.
  { unfold get_path. destruct (map_of h1 (fields e1)) as [|a l]; [right; by eexists|]. destruct (get_loop _ _ _) as [op|]; [right; by eexists|by left]. }
  destruct (place (k :: path) n x (g_boxes G1)) as [[bs'|]|].
  - destruct (Hget ltac:(done)) as [old ->]. rewrite andb_false_r. rewrite Hf1. destruct HP as (h' & extra & -> & Hp' & Hst' & Hex & Hsb').
    exists (mkPut h' e1 old None), (extra1 ++ extra). cbn [put_heap put_event put_err]. rewrite En1, <- (assoc_L (++)) in Hp'.
    split_and!; try done.
    + split; [done|]. unfold root_ok. rewrite Hg1. exists r. split; [done|]. rewrite En1 in Hn1. rewrite (assoc_L (++)). by apply lookup_app_l_Some.
    + by eapply stays_trans.
    + eapply stable_trans_fresh; [eapply stable_weaken; [exact Hsb1|done]|exact Hsb'|]. intros l Hl. apply Hown1. by left.
    + intros l [Hl|Hl].
      * rewrite (assoc_L (++)), <- En1 in Hl. apply elem_of_app in Hl as [Hl|Hl]; [apply Hown1; by left|].
        right. eapply fresh_back; [exact Hsb1|]. by apply Hex.
      * apply Hown1. by right.
  - destruct (Hget ltac:(done)) as [old ->]. rewrite andb_false_r, Hf1, HP. exists (mkPut h1 e1 None (Some (errNotObject (k :: path)))), extra1.
    cbn [put_heap put_event put_err]. rewrite <- En1. split_and!; try done.
    eapply stable_weaken; [exact Hsb1|done].
  - destruct Hget2 as [->|[old ->]]; [done|]. by rewrite andb_false_r, Hf1, HP.
Qed.

(** ** One processor *)
Definition goes (w w' : world) (i : nat) (e e' : event) (names names' : list loc) (G' : graph) : Prop :=
  w_events w !! i = Some e ∧ w_events w' !! i = Some e' ∧ state (w_heap w') e' G' names' ∧ names `prefix_of` names' ∧
  stays (w_heap w) (w_heap w') ∧ stable (w_heap w) (w_heap w') (own e names) ∧
  (∀ l, own e' names' l → own e names l ∨ EventRefine.fresh (w_heap w) l) ∧
  (∀ j, j ≠ i → w_events w' !! j = w_events w !! j) ∧ length (w_events w') = length (w_events w) ∧
  w_env w' = w_env w ∧ w_log w' = w_log w.
Lemma goes_refl w i e names G : w_events w !! i = Some e → state (w_heap w) e G names → goes w w i e e names names G.
Proof. intros H1 H2. unfold goes. split_and!; try done; [apply stays_refl|apply stable_refl|by left]. Qed.
Lemma goes_trans w1 w2 w3 i e1 e2 e3 n1 n2 n3 G2 G3 : goes w1 w2 i e1 e2 n1 n2 G2 → goes w2 w3 i e2 e3 n2 n3 G3 → goes w1 w3 i e1 e3 n1 n3 G3.
Proof.
  intros (A1 & A2 & A3 & A4 & A5 & A6 & A7 & A8 & A9 & A10 & A11) (B1 & B2 & B3 & B4 & B5 & B6 & B7 & B8 & B9 & B10 & B11).
  unfold goes. split_and!; try done; try congruence.
  - by etrans.
  - by eapply stays_trans.
  - by eapply stable_trans_fresh.
  - intros l Hl. destruct (B7 _ Hl) as [H|H]; [by apply A7|]. right. by eapply fresh_back.
  - intros j Hj. by rewrite B8, A8.
Qed.
Lemma goes_moves w w' i e e' names names' G' fp : goes w w' i e e' names names' G' → (∀ l, own e names l → l ∈ fp) →
  gmoves drawn w w' i fp G' ∧ w_log w' = w_log w.
Proof.
  intros (A1 & A2 & A3 & A4 & A5 & A6 & A7 & A8 & A9 & A10 & A11) Hfp. split; [|done]. unfold gmoves. split_and!; try done.
  - exists (names' ++ match fields e' with Some r => [LMap r] | None => [] end).
    assert (∀ l, l ∈ names' ++ match fields e' with Some r => [LMap r] | None => [] end ↔ own e' names' l) as Hiff.
    { intros l. unfold own. rewrite elem_of_app. destruct (fields e') as [r|].
      - rewrite elem_of_list_singleton. split; [intros [?|?]; eauto|intros [?|(r' & [= <-] & ?)]; eauto].
      - rewrite elem_of_nil. split; [intros [?|[]]; by left|intros [?|(r' & [=] & _)]; by left]. }
    split.
    + exists e', names'. split_and!; try done. intros l. by apply Hiff.
    + intros l Hl. apply Hiff in Hl. destruct (A7 _ Hl) as [H|H]; [left; by apply Hfp|by right].
  - eapply stable_weaken; [exact A6|done].
Qed.
Lemma goes_item w w' i e e' names names' G' op x : goes w w' i e e' names names' G' → item_at (w_heap w) names op x → item_at (w_heap w') names' op x.
Proof. intros (_ & _ & _ & A4 & A5 & _) H. by eapply item_at_mono. Qed.
Lemma goes_heap w h' i e G names : w_events w !! i = Some e → state (w_heap w) e G names → stays (w_heap w) h' → stable (w_heap w) h' noW →
  goes w (set_heap w h') i e e names names G.
Proof.
  intros H1 H2 H3 H4. unfold goes. cbn [set_heap w_heap w_events w_env w_log]. split_and!; try done.
  - by eapply state_frame.
  - eapply stable_weaken; [exact H4|done].
  - by left.
Qed.
Lemma get_goes w pe i e G names key (k : option ptr → prog (option goerr)) : pe_data pe = Some i → w_events w !! i = Some e →
  state (w_heap w) e G names →
  match gread key G with
  | Shares => False
  | Crashes => run_prog (PGet key k) w pe = Panic
  | Gives o => ∃ w' op, run_prog (PGet key k) w pe = run_prog (k op) w' pe ∧ goes w w' i e e names names G ∧
      match o with None => op = None | Some x => ∃ p, op = Some p ∧ item_at (w_heap w') names (Some p) x end
  end.
Proof.
  intros Hpe Hi Hs. pose proof (gread_ref _ _ _ _ key Hs) as H. cbn [run_prog]. rewrite (evt_of_eq w pe i e Hpe Hi).
  destruct (gread key G) as [o| |]; [|by rewrite H|done]. destruct H as (h' & op & -> & Hst & Hsb & Ho).
  exists (set_heap w h'), op. split; [done|]. split; [by apply goes_heap|]. destruct o as [x|]; [|done].
  destruct Ho as [Hn Ho]. destruct op as [p|]; [|done]. by exists p.
Qed.
Lemma put_goes w pe i e G names key p x (k : option ptr → option goerr → prog (option goerr)) : pe_data pe = Some i → w_events w !! i = Some e →
  state (w_heap w) e G names → item_at (w_heap w) names (Some p) x →
  match gstore key x G with
  | Shares => False
  | Crashes => run_prog (PPut key (Some p) k) w pe = Panic
  | Gives (G', err) => ∃ w' e' names' old, run_prog (PPut key (Some p) k) w pe = run_prog (k old err) w' pe ∧ goes w w' i e e' names names' G'
  end.
Proof.
  intros Hpe Hi Hs Hx. pose proof (gstore_ref _ _ _ _ key p x Hs Hx) as H. cbn [run_prog]. rewrite (evt_of_eq w pe i e Hpe Hi).
  destruct (gstore key x G) as [[G' err]| |]; [|by rewrite H|done]. destruct H as (pr & extra & -> & <- & Hs' & Hst & Hsb & Hown).
  eexists _, (put_event pr), (names ++ extra), (put_old pr). split; [reflexivity|]. unfold goes. cbn [w_heap w_events w_env w_log].
  assert (i < length (w_events w)) as Hlt by (by eapply lookup_lt_Some).
  split_and!; try done.
  - by rewrite list_lookup_insert.
  - by eexists.
  - intros j Hj. by rewrite list_lookup_insert_ne.
  - by rewrite insert_length.
Qed.
Lemma new_goes w pe i e G names v (k : ptr → prog (option goerr)) : w_events w !! i = Some e → state (w_heap w) e G names →
  ∃ w' p, run_prog (PNew v k) w pe = run_prog (k p) w' pe ∧ goes w w' i e e names names G ∧ hvals (w_heap w') !! p = Some v ∧
    EventRefine.fresh (w_heap w) (LArr p).
Proof.
  intros Hi Hs. eexists _, _. split; [reflexivity|]. cbn [set_heap w_heap]. split; [apply goes_heap; try done; [apply stays_alloc|apply stable_alloc_val]|].
  split; [simpl; rewrite lookup_app_r by done; by rewrite Nat.sub_diag|]. simpl. done.
Qed.
Notation gsteps := (gsteps_to drawn).
Lemma goes_steps c w pe i fp e names e' names' G' err w' : run_prog c w pe = Ok (w', pe, err) →
  goes w w' i e e' names names' G' → (∀ l, own e names l → l ∈ fp) → gsteps c w pe i fp (Gives (G', err)).
Proof. intros Hr Hg Hf. destruct (goes_moves _ _ _ _ _ _ _ _ _ Hg Hf) as [H1 H2]. by exists w'. Qed.
(** Storing at the end. *)
Lemma put_end c w w1 pe i fp e names e1 names1 G1 key p x : pe_data pe = Some i →
  run_prog c w pe = run_prog (PPut key (Some p) (λ _ err, Ret err)) w1 pe →
  goes w w1 i e e1 names names1 G1 → item_at (w_heap w1) names1 (Some p) x → (∀ l, own e names l → l ∈ fp) →
  gsteps c w pe i fp (gstore key x G1).
Proof.
  intros Hpe E Hg Hx Hf. pose proof Hg as (_ & Hi1 & Hs1 & _). pose proof (put_goes w1 pe i e1 G1 names1 key p x (λ _ err, Ret err) Hpe Hi1 Hs1 Hx) as H.
  destruct (gstore key x G1) as [[G' err]| |]; [|simpl; congruence|done]. destruct H as (w' & e' & names' & old & H & Hg').
  eapply goes_steps; [rewrite E, H; reflexivity|by eapply goes_trans|done].
Qed.
Lemma load_run w pe p v (k : Value → prog (option goerr)) : hvals (w_heap w) !! p = Some v → run_prog (PLoad (Some p) k) w pe = run_prog (k v) w pe.
Proof. intros H. cbn [run_prog deref]. by rewrite H. Qed.
Lemma case_gsem msg f field target w pe i G fp : pe_data pe = Some i → drawn w i G fp →
  gsteps (case_process msg f (mkCase field target)) w pe i fp (gchange_case msg f field target G).
Proof.
  intros Hpe (e & names & Hi & Hs & Hf). unfold case_process, gchange_case. cbn [cs_field cs_target].
  match goal with |- context [PGet field ?k] => pose proof (get_goes w pe i e G names field k Hpe Hi Hs) as H end.
  destruct (gread field G) as [o| |]; [|exact H|done]. destruct H as (w1 & op & E & Hg & Ho). cbn [vbind].
  destruct o as [x|]; [|subst op; by eapply goes_steps]. destruct Ho as (p & -> & Hx). pose proof Hg as (_ & Hi1 & Hs1 & _).
  assert (∃ v, hvals (w_heap w1) !! p = Some v ∧ ((v_type v = StringType ∧ x = IPlain (TStr (v_str v))) ∨ v_type v ≠ StringType ∧ ∀ s, x ≠ IPlain (TStr s))) as (v & Hv & Hor).
  { inversion Hx as [|? v t Hv Ht|? v Hv Ht Ho|? v n Hv Ht Ho Hl|? v r n Hv Ht Ho Hl]; subst; exists v; (split; [done|]).
    2-4: by right; rewrite Ht. unfold scalar_tree in Ht. destruct (v_obj v); [done|].
    repeat match type of Ht with (if ?c then _ else _) = _ => destruct c eqn:? end; simplify_eq; try (right; split; [|done]; intros E'; rewrite E' in *; done).
    left. split; [by apply N.eqb_eq|done]. }
  rewrite (load_run _ _ _ _ _ Hv) in E. destruct Hor as [[Hty ->]|[Hty Hns]].
  - rewrite Hty, N.eqb_refl in E. cbn [negb] in E.
    match type of E with _ = run_prog (PNew ?v ?k) _ _ => destruct (new_goes w1 pe i e G names v k Hi1 Hs1) as (w2 & q & E2 & Hg2 & Hq & _) end.
    assert ((if String.eqb target "" then field else target) = (if decide (target = "") then field else target)) as Et.
    { destruct (String.eqb_spec target ""); [by rewrite decide_True|by rewrite decide_False]. }
    rewrite <- Et. eapply put_end; [done|rewrite E; exact E2|by eapply goes_trans| |done]. by eapply ia_scalar.
  - rewrite (proj2 (N.eqb_neq _ _) Hty) in E. cbn [negb] in E.
    assert (gsteps (PGet field (λ v0, match v0 with None => Ret (Some (EKeyMissing field)) | Some _ => PLoad v0 (λ x0, if negb (N.eqb (v_type x0) StringType) then Ret (Some (EMsg msg)) else
         PNew (mkString (f (v_str x0))) (λ p0, PPut (if String.eqb target "" then field else target) (Some p0) (λ _ err, Ret err))) end)) w pe i fp (Gives (G, Some (EMsg msg)))) as HH.
    { by eapply goes_steps. }
    destruct x as [[]| |]; try exact HH. by destruct (Hns s).
Qed.

(** Appending to an array. *)
Lemma finish_goes w pe i e G names field value p n : w_events w !! i = Some e → state (w_heap w) e G names →
  item_at (w_heap w) names (Some p) (IArr n) →
  ∃ w', run_prog (append_finish (mkAppend field value) p) w pe = Ok (w', pe, None) ∧
    goes w w' i e e names names (append_to n value G).
Proof.
  intros Hi Hs Hx. unfold append_finish.
  match goal with |- context [run_prog (PNew ?v ?k)] => destruct (new_goes w pe i e G names v k Hi Hs) as (w1 & s & -> & Hg1 & Hsv & _) end.
  pose proof (goes_item _ _ _ _ _ _ _ _ _ _ Hg1 Hx) as Hx1. pose proof Hg1 as (_ & Hi1 & Hs1 & _).
  inversion Hx1 as [| | |? v ? Hv Ht Ho Hl|]; subst. rewrite (load_run _ _ _ _ _ Hv). cbn [run_prog].
  rewrite decide_True by (by eapply lookup_lt_Some). eexists. split; [reflexivity|]. eapply goes_trans; [exact Hg1|].
  destruct Hs1 as [Hp Hr]. set (v' := with_arr v (Some (arr_of v ++ [Some s]))).
  assert (stays (w_heap w1) (set_val (w_heap w1) p v')) as Hst.
  { intros q u Hq. cbn [set_val hvals]. destruct (decide (q = p)) as [->|Hne].
    - exists v'. rewrite list_lookup_insert by (by eapply lookup_lt_Some). split; [done|]. assert (u = v) as -> by congruence. by right.
    - exists u. rewrite list_lookup_insert_ne by done. auto. }
  unfold goes. cbn [set_heap w_heap w_events w_env w_log]. split_and!; try done.
  - split.
    + unfold append_to. cbn [g_boxes]. rewrite <- (app_nil_r (<[n:=_]> _)). eapply (pic_update _ _ names names []); try done.
      * by rewrite app_nil_r.
      * apply Hp.
      * intros [r'|q] Hl' Hne; simpl; [done|]. rewrite list_lookup_insert_ne; [done|]. intros ->. by apply Hne.
      * destruct (pic_lookup _ _ _ _ _ Hp Hl) as (b & Hb & Hat).
        assert (Forall2 (item_at (w_heap w1) names) (arr_of v) (elems (g_boxes G) n)) as Hel.
        { unfold elems, arr_of. rewrite Hb. inversion Hat as [? v2 Hv2 Ht2 Ho2 Ha2|? v2 ops xs Hv2 Ht2 Ho2 Ha2 Hxs|]; subst;
            assert (v2 = v) as -> by congruence; rewrite Ha2; [constructor|done]. }
        eapply (ba_arr _ _ _ v'); [apply list_lookup_insert; by eapply lookup_lt_Some|done|done|reflexivity|].
        apply Forall2_app; [by eapply items_mono|]. apply Forall2_cons. split; [|constructor].
        eapply item_at_mono; [exact Hst|done|]. by eapply ia_scalar.
    + unfold root_ok, append_to in *. cbn [g_root set_val hmaps]. done.
  - eapply stable_set_val; [exact Hv|done|]. left. by eapply elem_of_list_lookup_2.
  - by left.
Qed.
(** Appending to an array nothing refers to. *)
Lemma lost_goes w pe i e G names field value v : w_events w !! i = Some e → state (w_heap w) e G names → v_type v = ArrayType →
  ∃ w', run_prog (PNew v (append_finish (mkAppend field value))) w pe = Ok (w', pe, None) ∧ goes w w' i e e names names G.
Proof.
  intros Hi Hs Ht. cbn [run_prog append_finish alloc_val set_heap w_heap deref hvals hmaps].
  set (p := length (hvals (w_heap w))).
  assert (((hvals (w_heap w) ++ [v]) ++ [mkString (ap_value (mkAppend field value))]) !! p = Some v) as E.
  { rewrite <- (assoc_L (++)). rewrite lookup_app_r by done. unfold p. by rewrite Nat.sub_diag. }
  rewrite E. rewrite decide_True by (by eapply lookup_lt_Some). eexists. split; [reflexivity|].
  match goal with |- goes _ ?w' _ _ _ _ _ _ => change w' with (set_heap w (w_heap w')) end.
  apply goes_heap; [done|done| |]; cbn [set_heap w_heap].
  - intros q u Hq. exists u. split; [|by left]. cbn [set_val hvals]. rewrite list_lookup_insert_ne.
    + rewrite <- (assoc_L (++)). by apply lookup_app_l_Some.
    + apply lookup_lt_Some in Hq. unfold p. lia.
  - split_and!; cbn [set_val hvals hmaps].
    + intros q u Hq. left. rewrite list_lookup_insert_ne.
      * rewrite <- (assoc_L (++)). by apply lookup_app_l_Some.
      * apply lookup_lt_Some in Hq. unfold p. lia.
    + auto.
    + rewrite insert_length, !app_length. lia.
    + done.
Qed.

Lemma append_gsem field value w pe i G fp : pe_data pe = Some i → drawn w i G fp →
  gsteps (append_process (mkAppend field value)) w pe i fp (gsem (BAppend field value) G).
Proof.
  intros Hpe (e & names & Hi & Hs & Hf). rewrite append_process_eq. cbn [gsem ap_field ap_value].
  match goal with |- context [PGet field ?k] => pose proof (get_goes w pe i e G names field k Hpe Hi Hs) as H; set (kk := k) in * end.
  destruct (gread field G) as [o| |]; [|exact H|done]. destruct H as (w1 & op & E & Hg & Ho). cbn [vbind]. pose proof Hg as (_ & Hi1 & Hs1 & _).
  destruct o as [x|].
  - destruct Ho as (p & -> & Hx). unfold kk in E at 2.
    assert (∀ v, hvals (w_heap w1) !! p = Some v → v_type v ≠ StringType → v_type v ≠ ArrayType →
      gsteps (PGet field kk) w pe i fp (Gives (G, Some (EMsg "value to append to is not array")))) as Hbad.
    { intros v Hv Hn1 Hn2. rewrite (load_run _ _ _ _ _ Hv), (proj2 (N.eqb_neq _ _) Hn1), (proj2 (N.eqb_neq _ _) Hn2) in E. cbn [negb] in E.
      by eapply goes_steps. }
    inversion Hx as [|? v t Hv Ht|? v Hv Ht Ho|? v n Hv Ht Ho Hl|? v r n Hv Ht Ho Hl]; subst.
    + destruct (decide (v_type v = StringType)) as [Hty|Hty].
      * assert (∃ s, t = TStr s) as [s ->]. { unfold scalar_tree in Ht. rewrite Hty in Ht. destruct (v_obj v); [done|]. cbn in Ht. simplify_eq. eauto. }
        rewrite (load_run _ _ _ _ _ Hv), Hty, N.eqb_refl in E.
        destruct (lost_goes w1 pe i e G names field value (mkArray [Some p]) Hi1 Hs1 ltac:(done)) as (w2 & E2 & Hg2).
        eapply goes_steps; [rewrite E; exact E2|by eapply goes_trans|done].
      * specialize (Hbad v Hv Hty (scalar_tree_not_array _ _ Ht)). destruct t; try exact Hbad.
        exfalso. apply Hty. unfold scalar_tree in Ht. repeat case_match; simplify_eq. by apply N.eqb_eq.
    + by apply (Hbad v); [|rewrite Ht..].
    + rewrite (load_run _ _ _ _ _ Hv), Ht in E. change (N.eqb ArrayType StringType) with false in E. rewrite N.eqb_refl in E. cbn [negb] in E.
      destruct (finish_goes w1 pe i e G names field value p n Hi1 Hs1 Hx) as (w2 & E2 & Hg2).
      eapply goes_steps; [rewrite E; exact E2|by eapply goes_trans|done].
    + by apply (Hbad v); [|rewrite Ht..].
  - subst op. unfold kk in E at 2.
    match type of E with _ = run_prog (PNew ?v ?k) _ _ => destruct (new_goes w1 pe i e G names v k Hi1 Hs1) as (w2 & q & E2 & Hg2 & Hq & Hqf) end.
    pose proof Hg2 as (_ & Hi2 & Hs2 & _ & Hst2 & Hsb2 & _ & _). rewrite E2 in E. clear E2. cbn [grow].
    set (G0 := mkGraph (g_boxes G ++ [BxArr None]) (g_root G)). set (n := length (g_boxes G)).
    assert (EventRefine.fresh (w_heap w) (LArr q)) as Hqf0. { destruct Hg as (_ & _ & _ & _ & _ & Hsb & _). by eapply fresh_back. }
    destruct Hs2 as [Hp2 Hr2]. destruct Hs as [Hp Hr].
    assert ((names ++ [LArr q]) !! n = Some (LArr q)) as Hnew.
    { unfold n. rewrite (pic_length _ _ _ Hp), lookup_app_r by done. by rewrite Nat.sub_diag. }
    assert (item_at (w_heap w2) (names ++ [LArr q]) (Some q) (IArr n)) as Hx by (by eapply ia_arr).
    assert (goes w w2 i e e names (names ++ [LArr q]) G0) as Hg3.
    { pose proof (goes_trans _ _ _ _ _ _ _ _ _ _ _ _ Hg Hg2) as (A1 & A2 & A3 & A4 & A5 & A6 & A7 & A8). unfold goes.
      split_and!; try done; try apply A8.
      - split.
        + apply (pic_grow (w_heap w2)); [done|apply stays_refl| |by intros []|].
          * exact (pic_fresh_NoDup _ _ _ _ Hp Hqf0).
          * apply Forall2_cons. split; [|constructor]. by eapply ba_nilarr.
        + unfold root_ok in *. cbn [g_root G0]. destruct (g_root G) as [m|].
          * destruct Hr2 as (r & H1 & H2). exists r. split; [done|]. by apply lookup_app_l_Some.
          * destruct Hr2 as [?|(r & H1 & H2 & H3)]; [by left|]. right. exists r. split; [done|]. split; [done|].
            rewrite elem_of_app, elem_of_list_singleton. by intros [?|?].
      - by eexists.
      - intros l [Hl|Hl]; [|left; by right]. apply elem_of_app in Hl as [Hl|Hl]; [left; by left|].
        apply elem_of_list_singleton in Hl as ->. by right. }
    pose proof Hg3 as (_ & _ & Hs3 & _).
    pose proof (put_goes w2 pe i e G0 _ field q (IArr n) (λ _ _, append_finish (mkAppend field value) q) Hpe Hi2 Hs3 Hx) as H.
    destruct (gstore field (IArr n) G0) as [[G' err]| |]; cbn [vbind]; [|exact (eq_trans E H)|done].
    destruct H as (w4 & e4 & names4 & old & E4 & Hg4). pose proof Hg4 as (_ & Hi4 & Hs4 & _).
    destruct (finish_goes w4 pe i e4 G' names4 field value q n Hi4 Hs4 (goes_item _ _ _ _ _ _ _ _ _ _ Hg4 Hx)) as (w5 & E5 & Hg5).
    eapply goes_steps; [rewrite E, E4; exact E5| |done]. eapply goes_trans; [|exact Hg5]. by eapply goes_trans.
Qed.
Lemma set_gsem target t from p w pe i G fp : pe_data pe = Some i → drawn w i G fp → holds (w_heap w) p t → t ≠ TNull →
  gsteps (set_process (mkSet from target p)) w pe i fp (gstore target (IPlain t) G).
Proof.
  intros Hpe (e & names & Hi & Hs & Hf) (v & Hv & Ht) Hnn. unfold set_process. cbn [se_value se_target se_copy_from].
  eapply put_end; [done| |by apply goes_refl|by eapply ia_scalar|done].
  rewrite (load_run _ _ _ _ _ Hv). destruct (N.eqb (v_type v) NullType) eqn:E; [|done].
  unfold scalar_tree in Ht. rewrite E in Ht. destruct (v_obj v); simplify_eq.
Qed.
Lemma copy_gsem target from p w pe i G fp : pe_data pe = Some i → drawn w i G fp → holds (w_heap w) p TNull → from ≠ "" →
  gsteps (set_process (mkSet from target p)) w pe i fp (gsem (BCopy from target) G).
Proof.
  intros Hpe (e & names & Hi & Hs & Hf) (v & Hv & Ht) Hnn. unfold set_process. cbn [se_value se_target se_copy_from gsem].
  set (k := λ v, match v with None => Ret (Some (EKeyMissing from)) | Some _ => PPut target v (λ _ err, Ret err) end).
  pose proof (get_goes w pe i e G names from k Hpe Hi Hs) as H.
  assert (∀ c, run_prog c w pe = run_prog (PGet from k) w pe → gsteps c w pe i fp
    (vbind (gread from G) (λ o, match o with None => Gives (G, Some (EKeyMissing from)) | Some x => gstore target x G end))) as Hc.
  { intros c Ec. destruct (gread from G) as [o| |]; [|simpl; congruence|done]. destruct H as (w1 & op & E & Hg & Ho). cbn [vbind].
    destruct o as [x|].
    - destruct Ho as (q & -> & Hx). eapply put_end; [done|rewrite Ec, E; reflexivity|exact Hg|done|done].
    - subst op. eapply goes_steps; [rewrite Ec, E; reflexivity|done|done]. }
  apply Hc. rewrite (load_run _ _ _ _ _ Hv), (null_type _ Ht), (proj2 (String.eqb_neq _ _) Hnn). done.
Qed.
Lemma nothing_gsem target p w pe i G fp : pe_data pe = Some i → drawn w i G fp → holds (w_heap w) p TNull →
  gsteps (set_process (mkSet "" target p)) w pe i fp (gsem (BSetNothing target) G).
Proof.
  intros Hpe (e & names & Hi & Hs & Hf) (v & Hv & Ht). unfold set_process. cbn [se_value se_target se_copy_from gsem].
  eapply (goes_steps _ _ _ _ _ e names e names _ _ w); [|by apply goes_refl|done].
  rewrite (load_run _ _ _ _ _ Hv), (null_type _ Ht), String.eqb_refl. cbn [negb run_prog].
  rewrite (evt_of_eq w pe i e Hpe Hi). unfold Put. rewrite <- keyToPath_spec.
  assert (mkWorld (w_heap w) (<[i:=e]> (w_events w)) (w_env w) (w_log w) = w) as Hw by (rewrite list_insert_id by done; by destruct w).
  destruct (keyToPath target) as [|k path] eqn:Ek; cbn [put put_heap put_event put_err put_old run_prog]; by rewrite Hw.
Qed.
Lemma conf_gsem b c w pe i G fp : runs_as (w_heap w) b c → pe_data pe = Some i → drawn w i G fp → gsteps c w pe i fp (gsem b G).
Proof.
  intros Hr Hpe Hs. destruct Hr.
  - by apply case_gsem.
  - by apply case_gsem.
  - by apply append_gsem.
  - by apply set_gsem.
  - by apply copy_gsem.
  - by apply nothing_gsem.
  - destruct Hs as (e & names & Hi & Hs & Hf). eapply (goes_steps _ _ _ _ _ e names e names _ _ w); [done|by apply goes_refl|done].
  - destruct Hs as (e & names & Hi & Hs & Hf). eapply (goes_steps _ _ _ _ _ e names e names _ _ w); [done|by apply goes_refl|done].
Qed.

(** ** A pipeline *)
Lemma drawn_inc w i G fp id mt : drawn w i G fp → drawn (inc w id mt) i G fp.
Proof. done. Qed.
Lemma pipe_gsem b pl w pe i G fp : pipe_as (w_heap w) b pl → pe_data pe = Some i → pe_dropped pe = false →
  drawn w i G fp → grun_to drawn (pl_process pl w pe) w pe i fp (gsem_pipe b G).
Proof. exact (gpipe_sem gsem drawn drawn_inc conf_gsem b pl w pe i G fp). Qed.
