(** * Histories of events fed to one pipeline. *)
From Verif Require Export IsoRun ProcRun.

(** ** Feeding events *)
(** A new event holding the fields [m], built from fresh values. *)
Definition new_event (w : world) (m : gomap tree) : world * nat :=
  let '(h1, gm) := alloc_assoc (w_heap w) m in
  let '(h2, r) := alloc_map_with h1 gm in
  (mkWorld h2 (w_events w ++ [mkEvent (Some r)]) (w_env w) (w_log w), length (w_events w)).

(** A new event holding [m] is processed; the number is that of the event. *)
Definition feed (pl : pipeline) (w : world) (m : gomap tree)
  : Outcome (world * nat * option nat * option goerr) :=
  let '(w1, i) := new_event w m in
  match Process pl w1 (Some i) with
  | Panic => Panic
  | Ok (w2, r, err) => Ok (w2, i, r, err)
  end.

Fixpoint feeds (pl : pipeline) (w : world) (ms : list (gomap tree)) : Outcome world :=
  match ms with
  | [] => Ok w
  | m :: ms' =>
      match feed pl w m with Panic => Panic | Ok (w', _, _, _) => feeds pl w' ms' end
  end.

(** ** What can be seen of a value, up to a depth (values may be cyclic) *)
Fixpoint view (n : nat) (h : heap) (op : option ptr) : tree :=
  match n with
  | O => TNil
  | S n' =>
      match op with
      | None => TNil
      | Some p =>
          match hvals h !! p with
          | None => TNil
          | Some v =>
              if N.eqb (v_type v) ArrayType
              then match v_arr v with None => TNilArr | Some l => TArr (map (view n' h) l) end
              else if N.eqb (v_type v) ObjectType
              then match v_obj v with
                   | None => TNilObj
                   | Some _ => TObj (map (λ kv, (kv.1, view n' h kv.2)) (map_of h (v_obj v)))
                   end
              else match scalar_tree v with Some t => t | None => TNil end
          end
      end
  end.

Definition event_view (n : nat) (w : world) (i : nat) : option (gomap tree) :=
  match w_events w !! i with
  | None => None
  | Some e => Some (map (λ kv, (kv.1, view n (w_heap w) kv.2)) (map_of (w_heap w) (fields e)))
  end.

Lemma view_rel b h1 h2 n : iso b h1 h2 → ∀ x y, orel (bp b) x y → view n h1 x = view n h2 y.
Proof.
  intros Hi. induction n as [|n IH]; intros x y H; [done|]. cbn [view].
  destruct x as [p|], y as [q|]; simpl in H; try done.
  destruct (iso_val _ _ _ Hi _ _ H) as (v1 & v2 & -> & -> & Hv).
  destruct Hv as (E1 & E2 & E3 & E4 & E5 & E6 & E7 & Ea & Eo). rewrite E7.
  destruct (N.eqb (v_type v2) ArrayType).
  { destruct (v_arr v1) as [l1|], (v_arr v2) as [l2|]; simpl in Ea; try done. f_equal.
    induction Ea as [|a c l1 l2 Hac _ IHl]; simpl; [done|]. f_equal; [by apply IH|done]. }
  destruct (N.eqb (v_type v2) ObjectType).
  { pose proof (iso_map_of b h1 h2 _ _ Hi Eo) as Hm.
    destruct (v_obj v1) as [r1|], (v_obj v2) as [r2|]; simpl in Eo; try done. f_equal.
    induction Hm as [|[k1 a] [k2 c] l1 l2 [Hk Hac] _ IHl]; simpl in *; [done|]. subst k2.
    f_equal; [f_equal; by apply IH|done]. }
  unfold scalar_tree. rewrite E1, E2, E3, E4, E5, E6, E7.
  by destruct (v_obj v1), (v_obj v2).
Qed.

Lemma event_view_rel b n i1 i2 w1 w2 :
  world_rel b i1 i2 w1 w2 → event_view n w1 i1 = event_view n w2 i2.
Proof.
  intros (Hi & e1 & e2 & H1 & H2 & He). unfold event_view. rewrite H1, H2. f_equal.
  pose proof (iso_map_of b _ _ _ _ Hi He) as Hm.
  induction Hm as [|[k1 a] [k2 c] l1 l2 [Hk Hac] _ IHl]; simpl in *; [done|]. subst k2.
  f_equal; [f_equal; by eapply view_rel|done].
Qed.

Lemma iso_alloc_assoc m : ∀ b h1 h2, iso b h1 h2 →
  ∃ b', sub b b' ∧ iso b' (alloc_assoc h1 m).1 (alloc_assoc h2 m).1 ∧
    map_rel b' (alloc_assoc h1 m).2 (alloc_assoc h2 m).2.
Proof.
  induction m as [|[k t] m IHl]; intros b h1 h2 Hi; simpl.
  - exists b. split; [apply sub_refl|]. split; [done|constructor].
  - destruct (iso_alloc_tree t b h1 h2 Hi) as (b1 & Hs1 & Hi1 & Ho).
    destruct (alloc_tree h1 t) as [h1a o1], (alloc_tree h2 t) as [h2a o2]. simpl in Hi1, Ho.
    destruct (IHl b1 h1a h2a Hi1) as (b2 & Hs2 & Hi2 & Hl2).
    destruct (alloc_assoc h1a m) as [h1b l1], (alloc_assoc h2a m) as [h2b l2]. simpl in *.
    exists b2. split_and!; [by eapply sub_trans|done|]. constructor; [|done]. split; [done|by eapply optr_mono].
Qed.

Lemma new_event_rel b m w1 w2 : iso b (w_heap w1) (w_heap w2) →
  ∃ b', sub b b' ∧ world_rel b' (new_event w1 m).2 (new_event w2 m).2 (new_event w1 m).1 (new_event w2 m).1 ∧
    w_log (new_event w1 m).1 = w_log w1 ∧ w_log (new_event w2 m).1 = w_log w2.
Proof.
  intros Hi. unfold new_event. destruct (iso_alloc_assoc m b _ _ Hi) as (b1 & Hs1 & Hi1 & Hm1).
  destruct (alloc_assoc (w_heap w1) m) as [h1a l1], (alloc_assoc (w_heap w2) m) as [h2a l2].
  simpl in Hi1, Hm1.
  destruct (iso_alloc_map_with b1 h1a h2a l1 l2 Hi1 Hm1) as (Hi2 & Hs2 & Hm2).
  destruct (alloc_map_with h1a l1) as [h1b r1], (alloc_map_with h2a l2) as [h2b r2]. simpl in Hi2, Hm2.
  eexists. split; [by eapply sub_trans|]. split; [|done]. split; [exact Hi2|]. simpl.
  exists (mkEvent (Some r1)), (mkEvent (Some r2)).
  rewrite !lookup_app_r, !Nat.sub_diag by apply Nat.le_refl. done.
Qed.

(** ** The cells of the configuration *)
(** Neither an array nor an object. *)
Definition plain (v : Value) : Prop := v_type v ≠ ArrayType ∧ v_arr v = None ∧ v_obj v = None.

Definition cells (C : list ptr) : bij := mkBij (λ p q, p = q ∧ p ∈ C) (λ _ _, False).

(** The cells [C] hold the same plain values in both worlds. *)
Definition same_cells (C : list ptr) (w1 w2 : world) : Prop :=
  ∀ p, p ∈ C → ∃ v, hvals (w_heap w1) !! p = Some v ∧ hvals (w_heap w2) !! p = Some v ∧ plain v.

Lemma same_cells_iso C w1 w2 : same_cells C w1 w2 → iso (cells C) (w_heap w1) (w_heap w2).
Proof.
  intros H. split; simpl.
  - by intros p q q' [-> _] [-> _].
  - by intros p q q' [-> _] [-> _].
  - done.
  - done.
  - intros p q [-> Hin]. destruct (H _ Hin) as (v & H1 & H2 & _ & Ha & Ho). exists v, v.
    split_and!; [done|done|]. unfold val_rel. rewrite Ha, Ho. by split_and!.
  - done.
Qed.

(** A processor that keeps nothing between calls beyond the cells [C], and reads
    no environment. *)
Definition stateless (C : list ptr) (c : prog (option goerr)) : Prop := prog_rel (cells C) c c.

(** A processor that never overwrites a plain value. *)
Definition keeps_plain (c : prog (option goerr)) : Prop :=
  ∀ w pe w' pe' a, run_prog c w pe = Ok (w', pe', a) →
  ∀ p v, hvals (w_heap w) !! p = Some v → plain v → hvals (w_heap w') !! p = Some v.

Theorem feed_same C pl w1 w2 m :
  Forall (λ q, stateless C (p_prog q)) (pl_all pl) → same_cells C w1 w2 →
  match feed pl w1 m, feed pl w2 m with
  | Panic, Panic => True
  | Ok (w1', i1, r1, err1), Ok (w2', i2, r2, err2) =>
      err1 = err2 ∧ (r1 = None ↔ r2 = None) ∧
      (∀ n, event_view n w1' i1 = event_view n w2' i2) ∧
      ∃ lg, w_log w1' = w_log w1 ++ lg ∧ w_log w2' = w_log w2 ++ lg
  | _, _ => False
  end.
Proof.
  intros Hall Hc. apply same_cells_iso in Hc. unfold feed.
  destruct (new_event_rel (cells C) m w1 w2 Hc) as (b1 & Hs1 & Hw1 & Hl1 & Hl2).
  destruct (new_event w1 m) as [wa i1], (new_event w2 m) as [wb i2]. simpl in Hw1, Hl1, Hl2.
  assert (Forall (λ q, prog_rel b1 (p_prog q) (p_prog q)) (pl_all pl)) as Hall'.
  { eapply Forall_impl; [exact Hall|]. intros q Hq. exact (prog_rel_mono _ _ _ Hq _ Hs1). }
  pose proof (Process_rel b1 pl i1 i2 wa wb Hall' Hw1) as Hp.
  destruct (Process pl wa (Some i1)) as [[[wc r1] e1]|], (Process pl wb (Some i2)) as [[[wd r2] e2]|]; simpl in Hp; try done.
  destruct Hp as (? & ? & (b2 & Hs2 & Hw2) & lg & Ha & Hb). split_and!; [done|done| |].
  - intros n. by eapply event_view_rel.
  - exists lg. by rewrite Ha, Hb, Hl1, Hl2.
Qed.

(** ** Plain cells survive *)
Definition plain_kept (w w' : world) : Prop :=
  ∀ p v, hvals (w_heap w) !! p = Some v → plain v → hvals (w_heap w') !! p = Some v.

Lemma plain_kept_refl w : plain_kept w w.
Proof. by intros p v Hp _. Qed.
Lemma plain_kept_trans w1 w2 w3 : plain_kept w1 w2 → plain_kept w2 w3 → plain_kept w1 w3.
Proof. unfold plain_kept. eauto. Qed.

Lemma run_list_plain' l :
  Forall (λ q, ∀ w pe w' pe' r, pp_process q w pe = Ok (w', pe', r) → plain_kept w w') l →
  ∀ w pe o w' pe' r, run_list pp_process l w pe o = Ok (w', pe', r) → plain_kept w w'.
Proof.
  induction 1 as [|q l Hq _ IH]; intros w pe o w' pe' r Hr; cbn [run_list] in Hr.
  { injection Hr as <- <- <-. by intros p v Hp _. }
  destruct (pp_process q w pe) as [[[wa pa] [ra|]]|] eqn:E; [| |done].
  - injection Hr as <- <- <-. by eapply Hq.
  - eapply plain_kept_trans; [by eapply Hq|]. by eapply IH.
Qed.

Lemma pp_process_plain p : Forall (λ q, keeps_plain (p_prog q)) (pp_all p) →
  ∀ w pe w' pe' r, pp_process p w pe = Ok (w', pe', r) → plain_kept w w'.
Proof.
  induction p as [id cond ignf ignm onf c IH] using pproc_ind'. rewrite pp_all_eq.
  intros [Hc Honf]%Forall_cons w pe w' pe' r H. cbn [pp_process] in H. simpl in Hc.
  destruct (run_prog c (inc w id MIn) pe) as [[[w1 pe1] [err|]]|] eqn:E; [| |done].
  2:{ simplify_eq. exact (Hc _ _ _ _ _ E). }
  assert (plain_kept w w1) as H1 by exact (Hc _ _ _ _ _ E).
  destruct (pe_dropped pe1); [by simplify_eq|].
  destruct (ignm && is_missing err); [by simplify_eq|].
  destruct (run_list pp_process onf w1 pe1 (Some err)) as [[[w2 pe2] err2]|] eqn:E2; [|done].
  assert (plain_kept w1 w2) as H2.
  { eapply run_list_plain'; [|exact E2]. clear -IH Honf. induction onf as [|q l IHl]; [constructor|].
    rewrite pps_all_cons, Forall_app in Honf. destruct Honf as [Hq Honf].
    apply Forall_cons in IH as [IHq IH]. constructor; [by apply IHq|by apply IHl]. }
  assert (plain_kept w w2) by (by eapply plain_kept_trans).
  destruct (ignf && _); by simplify_eq.
Qed.

Lemma run_list_plain l : Forall (λ q, keeps_plain (p_prog q)) (pps_all l) →
  ∀ w pe o w' pe' r, run_list pp_process l w pe o = Ok (w', pe', r) → plain_kept w w'.
Proof.
  intros H. apply run_list_plain'. induction l as [|q l IH]; [constructor|].
  rewrite pps_all_cons, Forall_app in H. destruct H as [Hq H].
  constructor; [by apply pp_process_plain|by apply IH].
Qed.

Lemma Process_plain pl w evt w' r err : Forall (λ q, keeps_plain (p_prog q)) (pl_all pl) →
  Process pl w evt = Ok (w', r, err) → plain_kept w w'.
Proof.
  intros [H1 H2]%Forall_app H. apply Process_pl in H as (pe' & H & _). unfold pl_process in H.
  destruct (run_list _ (pl_processors pl) w _ None) as [[[w1 pe1] [e|]]|] eqn:E; [| |done].
  - eapply plain_kept_trans; [exact (run_list_plain _ H1 _ _ _ _ _ _ E)|exact (run_list_plain _ H2 _ _ _ _ _ _ H)].
  - injection H as <- <- <-. exact (run_list_plain _ H1 _ _ _ _ _ _ E).
Qed.

Lemma alloc_tree_vals t : ∀ h p v, hvals h !! p = Some v → hvals (alloc_tree h t).1 !! p = Some v.
Proof.
  induction t as [| | | | | | | | |l IH| |m IH] using tree_ind'; intros h p v Hp;
    try (simpl; by apply lookup_app_l_Some); [done| |].
  - rewrite alloc_tree_arr.
    assert (∀ h, hvals h !! p = Some v → hvals (alloc_list h l).1 !! p = Some v) as Hl.
    { clear -IH. induction l as [|t l IHl]; intros h Hp; simpl; [done|].
      apply Forall_cons in IH as [Ht IH]. specialize (Ht h p v Hp). destruct (alloc_tree h t) as [h1 o]. simpl in Ht.
      specialize (IHl IH h1 Ht). by destruct (alloc_list h1 l). }
    specialize (Hl h Hp). destruct (alloc_list h l) as [h1 ops]. simpl in *. by apply lookup_app_l_Some.
  - rewrite alloc_tree_obj.
    assert (∀ h, hvals h !! p = Some v → hvals (alloc_assoc h m).1 !! p = Some v) as Hl.
    { clear -IH. induction m as [|[k t] m IHl]; intros h Hp; simpl; [done|].
      apply Forall_cons in IH as [Ht IH]. specialize (Ht h p v Hp). simpl in Ht.
      destruct (alloc_tree h t) as [h1 o]. simpl in Ht.
      specialize (IHl IH h1 Ht). by destruct (alloc_assoc h1 m). }
    specialize (Hl h Hp). destruct (alloc_assoc h m) as [h1 ops]. simpl in *. by apply lookup_app_l_Some.
Qed.

Lemma new_event_plain w m : plain_kept w (new_event w m).1.
Proof.
  intros p v Hp _. unfold new_event.
  assert (∀ h, hvals h !! p = Some v → hvals (alloc_assoc h m).1 !! p = Some v) as Hl.
  { clear. induction m as [|[k t] m IHl]; intros h Hp; simpl; [done|].
    pose proof (alloc_tree_vals t h p v Hp) as Ht.
    destruct (alloc_tree h t) as [h1 o]. simpl in Ht.
    specialize (IHl h1 Ht). by destruct (alloc_assoc h1 m). }
  specialize (Hl _ Hp). by destruct (alloc_assoc (w_heap w) m) as [h1 ops].
Qed.

Lemma feeds_plain pl ms : Forall (λ q, keeps_plain (p_prog q)) (pl_all pl) →
  ∀ w w', feeds pl w ms = Ok w' → plain_kept w w'.
Proof.
  intros Hk. induction ms as [|m ms IH]; intros w w' H; simpl in H; [simplify_eq; apply plain_kept_refl|].
  unfold feed in H. pose proof (new_event_plain w m) as Hn. destruct (new_event w m) as [w1 i]. simpl in Hn.
  destruct (Process pl w1 (Some i)) as [[[w2 r] err]|] eqn:E; [|done].
  eapply plain_kept_trans; [exact Hn|].
  eapply plain_kept_trans; [exact (Process_plain _ _ _ _ _ _ Hk E)|]. by apply IH.
Qed.

(** Any two histories from the same start. *)
Lemma feeds_same_cells C pl w0 ms1 ms2 w1 w2 :
  Forall (λ q, keeps_plain (p_prog q)) (pl_all pl) → same_cells C w0 w0 →
  feeds pl w0 ms1 = Ok w1 → feeds pl w0 ms2 = Ok w2 → same_cells C w1 w2.
Proof.
  intros Hk Hc H1 H2 p Hp. destruct (Hc p Hp) as (v & Hv & _ & Hpl). exists v.
  split_and!; [exact (feeds_plain pl ms1 Hk w0 w1 H1 p v Hv Hpl)|exact (feeds_plain pl ms2 Hk w0 w2 H2 p v Hv Hpl)|done].
Qed.

(** ** The built-in processors *)
Definition vals_kept (h h' : heap) : Prop := ∀ p v, hvals h !! p = Some v → hvals h' !! p = Some v.

Lemma get_path_vals h e path h' o : get_path h e path = Ok (h', o) → vals_kept h h'.
Proof.
  unfold get_path. intros H p v Hp. destruct (map_of h (fields e)); [by simplify_eq|].
  destruct path as [|k path].
  - simpl in H. simplify_eq. simpl. by apply lookup_app_l_Some.
  - destruct (get_loop _ _ _); [by simplify_eq|done].
Qed.

Lemma map_write_vals h r k x h' : map_write h r k x = Ok h' → hvals h' = hvals h.
Proof. destruct r as [r|]; simpl; [|done]. destruct (hmaps h !! r); [|done]. by intros [= <-]. Qed.

Lemma put_loop_vals full path : ∀ h r v h' err,
  put_loop full h r path v = Ok (h', err) → vals_kept h h'.
Proof.
  induction path as [|k rest IH]; intros h r v h' err H p x Hp; [by simpl in H; simplify_eq|].
  destruct rest as [|k2 rest].
  { cbn [put_loop] in H. destruct (map_write h r k v) eqn:E; [|done]. simplify_eq.
    by rewrite (map_write_vals _ _ _ _ _ E). }
  rewrite put_loop_cons in H. destruct (mget k (map_of h r)) as [op|].
  - destruct (deref h op) as [inner|]; [|done].
    destruct (N.eqb (v_type inner) ObjectType); [by eapply IH|by simplify_eq].
  - destruct (alloc_map h) as [h1 r1] eqn:E1. destruct (alloc_val h1 _) as [h2 p1] eqn:E2.
    destruct (map_write h2 r k (Some p1)) as [h3|] eqn:E; [|done]. apply map_write_vals in E.
    eapply (IH h3); [exact H|]. rewrite E. unfold alloc_map in E1. unfold alloc_val in E2.
    injection E1 as <- <-. injection E2 as <- <-. simpl. by apply lookup_app_l_Some.
Qed.

Lemma put_vals h e path v ow pr : put h e path v ow = Ok pr → vals_kept h (put_heap pr).
Proof.
  unfold put. intros H p x Hp. destruct path as [|k path]; [by simplify_eq|].
  destruct v as [q|]; [|by simplify_eq].
  set (i := match fields e with Some _ => (h, e) | None => let '(h1, r) := alloc_map h in (h1, mkEvent (Some r)) end) in H.
  assert (hvals i.1 = hvals h) as Hi by (subst i; by destruct (fields e)).
  destruct i as [h1 e1]. simpl in Hi.
  destruct (get_path h1 e1 _) as [[h2 old]|] eqn:Eg; [|done].
  assert (hvals h2 !! p = Some x) as H2. { eapply get_path_vals; [exact Eg|]. by rewrite Hi. }
  destruct (_ && _); [by simplify_eq|].
  destruct (put_loop _ h2 _ _ _) as [[h3 [err|]]|] eqn:El; simplify_eq; simpl; by eapply put_loop_vals.
Qed.

Inductive builtin (C : list ptr) : prog (option goerr) → Prop :=
| bi_lowercase f c : builtin C (lowercase_process f c)
| bi_uppercase f c : builtin C (uppercase_process f c)
| bi_append c : builtin C (append_process c)
| bi_set c : se_value c ∈ C → builtin C (set_process c)
| bi_remove c : builtin C (remove_process c)
| bi_community_id : builtin C community_id_process.

Lemma val_rel_scalar b v : v_arr v = None → v_obj v = None → val_rel b v v.
Proof. intros H1 H2. unfold val_rel. rewrite H1, H2. by split_and!. Qed.

Lemma builtin_stateless C c : builtin C c → stateless C c.
Proof.
  assert (∀ b b' c p1 p2, sub b b' → bp b' p1 p2 →
    prog_rel b'
      (PNew (mkString (ap_value c)) (λ s, PLoad (Some p1) (λ a,
         PStore (Some p1) (with_arr a (Some (arr_of a ++ [Some s]))) (Ret None))))
      (PNew (mkString (ap_value c)) (λ s, PLoad (Some p2) (λ a,
         PStore (Some p2) (with_arr a (Some (arr_of a ++ [Some s]))) (Ret (@None goerr)))))) as Hfin.
  { intros b b' c0 p1 p2 Hs Hp. apply pr_new; [by apply val_rel_scalar|]. intros b1 s1 s2 Hs1 Hp1.
    apply pr_load; [by apply Hs1|]. intros b2 v1 v2 Hs2 Hv.
    apply pr_store; [by apply Hs2, Hs1| |constructor].
    destruct Hv as (E1 & E2 & E3 & E4 & E5 & E6 & E7 & Ea & Eo).
    unfold val_rel, with_arr. simpl. split_and!; try done. unfold arr_of.
    assert (Forall2 (orel (bp b2)) [Some s1] [Some s2]) as H1.
    { constructor; [by apply Hs2|constructor]. }
    destruct (v_arr v1), (v_arr v2); simpl in Ea; try done. by apply Forall2_app. }
  assert (∀ b msg f c, prog_rel b (case_process msg f c) (case_process msg f c)) as Hcase.
  { intros b msg f c0. apply pr_get. intros b1 o1 o2 Hs1 Ho.
    destruct o1 as [p1|], o2 as [p2|]; simpl in Ho; try done; [|constructor].
    apply pr_load; [done|]. intros b2 v1 v2 Hs2 (E1 & E2 & E3 & E4 & E5 & E6 & E7 & Ea & Eo).
    rewrite E7, E5. destruct (negb _); [constructor|].
    apply pr_new; [by apply val_rel_scalar|]. intros b3 q1 q2 Hs3 Hq.
    apply pr_put; [done|]. intros. constructor. }
  intros Hb. unfold stateless. destruct Hb as [f c|f c|c|c Hin|c|]; [apply Hcase|apply Hcase| | |constructor|constructor].
  - apply pr_get. intros b1 o1 o2 Hs1 Ho. destruct o1 as [p1|], o2 as [p2|]; simpl in Ho; try done.
    + apply pr_load; [done|]. intros b2 v1 v2 Hs2 (E1 & E2 & E3 & E4 & E5 & E6 & E7 & Ea & Eo).
      rewrite E7. destruct (N.eqb _ StringType).
      { apply pr_new; [|intros b3 q1 q2 Hs3 Hq; by eapply Hfin].
        unfold val_rel. simpl. split_and!; try done. constructor; [|constructor]. by apply Hs2. }
      destruct (negb _); [constructor|]. eapply Hfin; [exact (sub_refl b2)|]. by apply Hs2.
    + apply pr_new; [by apply val_rel_scalar|]. intros b2 q1 q2 Hs2 Hq. apply pr_put; [done|].
      intros b3 o1 o2 err Hs3 _. eapply Hfin; [exact (sub_refl b3)|]. by apply Hs3.
  - apply pr_load; [by split|]. intros b1 v1 v2 Hs1 (E1 & E2 & E3 & E4 & E5 & E6 & E7 & Ea & Eo).
    rewrite E7. destruct (negb _).
    { apply pr_put; [by apply Hs1|]. intros. constructor. }
    destruct (negb _).
    + apply pr_get. intros b2 o1 o2 Hs2 Ho. destruct o1 as [p1|], o2 as [p2|]; simpl in Ho; try done; [|constructor].
      apply pr_put; [done|]. intros. constructor.
    + apply pr_put; [done|]. intros. constructor.
Qed.

Lemma builtin_keeps C c : builtin C c → keeps_plain c.
Proof.
  assert (∀ c0 p w pe w' pe' a,
    (∀ v, hvals (w_heap w) !! p = Some v → v_type v = ArrayType) →
    run_prog (append_finish c0 p) w pe = Ok (w', pe', a) →
    p < length (hvals (w_heap w)) →
    plain_kept w w') as Hfin.
  { intros c0 p w pe w' pe' a Hty Hr Hlt q v Hq Hpl. simpl in Hr.
    destruct ((hvals (w_heap w) ++ _) !! p) as [x|] eqn:Ep; [|done].
    rewrite lookup_app_l in Ep by done.
    destruct (decide _); [|done]. simplify_eq. simpl.
    destruct (decide (q = p)) as [->|Hne].
    - apply Hty in Hq. by destruct Hpl.
    - rewrite list_lookup_insert_ne by done. by apply lookup_app_l_Some. }
  assert (∀ msg f c, keeps_plain (case_process msg f c)) as Hcase.
  { intros msg f c0 w pe w' pe' a H p v Hp _. simpl in H. destruct (evt_of w pe) as [[i e]|]; [|done].
    destruct (Get _ e _) as [[h o]|] eqn:Eg; [|done]. apply get_path_vals in Eg. specialize (Eg _ _ Hp).
    destruct o as [q|]; [|by simpl in H; simplify_eq]. simpl in H.
    destruct (hvals h !! q) as [x|]; [|done]. destruct (negb _); [by simpl in H; simplify_eq|]. simpl in H.
    destruct (evt_of _ pe) as [[i' e']|]; [|done].
    destruct (Put _ e' _ _) as [r|] eqn:Ep; [|done]. simplify_eq. simpl.
    eapply put_vals; [exact Ep|]. simpl. by apply lookup_app_l_Some. }
  intros Hb. destruct Hb as [f c|f c|c|c Hin|c|];
    [apply Hcase|apply Hcase| | |intros w pe w' pe' a H p v Hp _; simpl in H; by simplify_eq..].
  - intros w pe w' pe' a H. rewrite append_process_eq in H. cbn [run_prog] in H.
    destruct (evt_of w pe) as [[i e]|] eqn:Ev; [|done].
    destruct (Get _ e _) as [[h o]|] eqn:Eg; [|done]. apply get_path_vals in Eg.
    assert (plain_kept w (set_heap w h)) as Hk1 by (intros p v Hp _; by apply Eg).
    destruct o as [q|].
    + cbn [run_prog deref set_heap w_heap] in H. destruct (hvals h !! q) as [x|] eqn:Eq; [|done].
      destruct (N.eqb (v_type x) StringType).
      { cbn [run_prog] in H. change (w_heap (set_heap w h)) with h in H.
        destruct (alloc_val h (mkArray [Some q])) as [h1 p] eqn:Ea.
        assert (vals_kept h h1 ∧ hvals h1 !! p = Some (mkArray [Some q])) as [Hk2 Hnew].
        { unfold alloc_val in Ea. simplify_eq. simpl. split; [intros ? ? ?; by apply lookup_app_l_Some|].
          rewrite lookup_app_r, Nat.sub_diag by apply Nat.le_refl. done. }
        eapply plain_kept_trans; [exact Hk1|].
        eapply (plain_kept_trans _ (set_heap w h1)); [intros y v Hy _; by apply Hk2|].
        eapply (Hfin c p _ pe w' pe' a); [|exact H|].
        - intros v. simpl. rewrite Hnew. by intros [= <-].
        - simpl. by eapply lookup_lt_Some. }
      destruct (N.eqb_spec (v_type x) ArrayType) as [Hty|Hty]; cbn [negb] in H.
      2:{ simpl in H. by simplify_eq. }
      eapply plain_kept_trans; [exact Hk1|]. eapply (Hfin c q _ pe w' pe' a); [|exact H|].
      * intros v. simpl. rewrite Eq. by intros [= <-].
      * simpl. by eapply lookup_lt_Some.
    + cbn [run_prog] in H. change (w_heap (set_heap w h)) with h in H.
      destruct (alloc_val h (mkArray [])) as [h1 p] eqn:Ea.
      assert (vals_kept h h1 ∧ hvals h1 !! p = Some (mkArray [])) as [Hk2 Hnew].
      { unfold alloc_val in Ea. simplify_eq. simpl. split; [intros ? ? ?; by apply lookup_app_l_Some|].
        rewrite lookup_app_r, Nat.sub_diag by apply Nat.le_refl. done. }
      destruct (evt_of _ pe) as [[i' e']|]; [|done].
      destruct (Put _ e' _ _) as [r|] eqn:Ep; [|done]. apply put_vals in Ep. simpl in Ep.
      eapply plain_kept_trans; [exact Hk1|].
      eapply (plain_kept_trans _ (set_heap w (put_heap r))); [intros y v Hy _; by apply Ep, Hk2|].
      match type of H with run_prog _ ?w2 _ = _ => assert (plain_kept w2 w') as Hk3 end; [|exact Hk3].
      eapply (Hfin c p _ pe w' pe' a); [|exact H|].
      * intros v. simpl. rewrite (Ep _ _ Hnew). by intros [= <-].
      * simpl. apply Ep in Hnew. by eapply lookup_lt_Some.
  - intros w pe w' pe' a H p v Hp _. unfold set_process in H. cbn [run_prog] in H.
    destruct (deref _ _) as [x|]; [|done]. destruct (negb _).
    { cbn [run_prog] in H. destruct (evt_of w pe) as [[i e]|]; [|done].
      destruct (Put _ e _ _) as [r|] eqn:Ep; [|done]. simpl in H. simplify_eq. simpl. by eapply put_vals. }
    destruct (negb _).
    + cbn [run_prog] in H. destruct (evt_of w pe) as [[i e]|]; [|done].
      destruct (Get _ e _) as [[h o]|] eqn:Eg; [|done]. apply get_path_vals in Eg. specialize (Eg _ _ Hp).
      destruct o as [q|]; [|by simpl in H; simplify_eq]. cbn [run_prog] in H.
      destruct (evt_of _ pe) as [[i' e']|]; [|done].
      destruct (Put _ e' _ _) as [r|] eqn:Ep; [|done]. simpl in H. simplify_eq. simpl. by eapply put_vals.
    + cbn [run_prog] in H. destruct (evt_of w pe) as [[i e]|]; [|done].
      destruct (Put _ e _ _) as [r|] eqn:Ep; [|done]. simpl in H. simplify_eq. simpl. by eapply put_vals.
Qed.
