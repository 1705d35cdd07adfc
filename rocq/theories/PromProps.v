(** * C60: what the metrics endpoint shows.

    [mrun … (mstart w) l = Ok s]: a program building pipelines with pipeline.New,
    registering and unregistering them with metrics.Register(p.Metrics()...) and
    metrics.Unregister, and processing events, in any order [l], ends in state [s]
    without a panic; [MRegister n] is about the [n]-th pipeline built.
    [scrape s]: what GET /metrics shows: metric, component_type, component_id, value.
    [measured c ty id]: the definition [c] has a processor of type [ty] with component
    id [id], not counting global on_failure processors (C24).
    [shows ds ty id l r]: by the order of registration, [r] is the pipeline shown
    (Prom.v, under "Specification"). *)
From Verif Require Import Prom NewProps.

(** What is shown, for every program: for a processor's type and id the counters of the
    first pipeline registered with one, until any pipeline with one is unregistered; never
    two lines for one counter, nothing if type or id are no valid UTF-8.  The value is the
    number of increments by that pipeline alone. *)
Theorem C60_shown : ∀ (CfgMap CfgVal : Type) (emptyCfg : CfgMap) (unpack : string → CfgMap → CfgVal + goerr) (reg : registry CfgVal proc) w l s,
  mrun emptyCfg unpack reg (mstart w) l = Ok s →
  NoDup (map fst (scrape s)) ∧
  ∀ m ty id v, (m, ty, id, v) ∈ scrape s ↔
    valid_utf8 ty ∧ valid_utf8 id ∧ ∃ n c pl lg, shows emptyCfg (built_pipes emptyCfg unpack reg l) ty id l (Some n) ∧
      ms_pipes s !! n = Some (c, pl, lg) ∧ v = count id m lg.
Proof.
  intros * H. destruct (mrun_inv _ _ _ _ _ _ H) as [H1 H2 H3 H4]. split.
  { unfold scrape. rewrite map_map. cbn [fst]. exact H3. }
  intros m ty id v. destruct (H4 _ ty id (reflexivity _)) as (r & Hr1 & Hr2).
  assert (∀ n, shows emptyCfg (built_pipes emptyCfg unpack reg l) ty id l (Some n) → n < length (ms_pipes s)) as Hlt.
  { rewrite <- (map_length (λ x, x.1.1)), H1. clear. generalize (built_pipes emptyCfg unpack reg l) as ds. intros ds n Hs. remember (Some n) as o eqn:Eo. revert n Eo.
    induction Hs as [|l' k c ? ? Hk ?|l' k c k' ? IH ? ?|l' k c r ? ? ? ?|l' o r ? IH ?]; intros n Eo; simplify_eq; auto. by eapply lookup_lt_Some. }
  unfold scrape. rewrite elem_of_list_fmap. split.
  - intros ([k m' ty' id'] & Heq & Hin). injection Heq as -> -> -> ->. cbn [co_pipe co_metric co_type co_id] in *.
    apply Hr2 in Hin as [[Hv1 Hv2] ->]. split_and!; try done. destruct (lookup_lt_is_Some_2 _ _ (Hlt k Hr1)) as [[[c pl] lg] E].
    rewrite E. by exists k, c, pl, lg.
  - intros (Hv1 & Hv2 & n & c & pl & lg & Hs & Hn & ->). exists (mkColl n m ty id). cbn [co_pipe co_metric co_id]. rewrite Hn. split; [done|].
    apply Hr2. split; [done|]. by eapply shows_fun.
Qed.
Print Assumptions C60_shown.
(** It is one pipeline at most. *)
Theorem C60_one : ∀ (CfgMap : Type) (emptyCfg : CfgMap) ds ty id l r r',
  shows emptyCfg ds ty id l r → shows emptyCfg ds ty id l r' → r = r'.
Proof. intros *. apply shows_fun. Qed.
Print Assumptions C60_one.
(** Processing an event changes the counters of that pipeline alone, as Process says. *)
Theorem C60_counts : ∀ (CfgMap CfgVal : Type) (emptyCfg : CfgMap) (unpack : string → CfgMap → CfgVal + goerr) (reg : registry CfgVal proc) s n evt s',
  mstep emptyCfg unpack reg s (MProcess n evt) = Ok s' →
  ∃ c pl lg w' r err, ms_pipes s !! n = Some (c, pl, lg) ∧ Process pl (own_log (ms_world s) lg) evt = Ok (w', r, err) ∧
    ms_pipes s' !! n = Some (c, pl, w_log w') ∧ ∀ k, k ≠ n → ms_pipes s' !! k = ms_pipes s !! k.
Proof.
  intros * H. cbn [mstep] in H. destruct (ms_pipes s !! n) as [[[c pl] lg]|] eqn:En; [|done].
  destruct (Process _ _ _) as [[[w r] err]|] eqn:Ep; [|done]. injection H as <-. exists c, pl, lg, w, r, err. cbn [ms_pipes]. split_and!; try done.
  - by rewrite list_lookup_insert by (by eapply lookup_lt_Some).
  - intros k Hk. by rewrite list_lookup_insert_ne.
Qed.
Print Assumptions C60_counts.

(** Pipelines with different ids do not disturb each other, if no name of a processor
    type contains a bracket: shown are the counters of exactly the pipelines registered
    and not unregistered since.  [on n l]: it is. *)
Inductive on {CfgMap : Type} (n : nat) : list (mop CfgMap) → Prop :=
| on_now l : on n (l ++ [MRegister n])
| on_still l o : on n l → o ≠ MUnregister n → on n (l ++ [o]).
Fixpoint has_bracket (s : string) : bool :=
  match s with "" => false | String c s' => Ascii.eqb c "["%char || has_bracket s' end.
(** No bracket after an s. *)
Fixpoint no_sb (p : bool) (s : string) : bool :=
  match s with "" => true | String c s' => negb (p && Ascii.eqb c "["%char) && no_sb (Ascii.eqb c "s"%char) s' end.
Lemma no_sb_occurs b y : ∀ p, no_sb p (b +:+ String "s" (String "[" y)) = false.
Proof. induction b as [|c b IH]; intros p; [cbn; by rewrite andb_false_r|]. cbn. by rewrite IH, andb_false_r. Qed.
Lemma no_sb_split a b x y : a +:+ String "s" (String "[" x) = b +:+ String "s" (String "[" y) →
  no_sb false x = true → no_sb false y = true → x = y.
Proof.
  revert b. induction a as [|c a IH]; intros b H Hx Hy.
  - destruct b as [|c b]; cbn in H; [by injection H|]. injection H as <- H. destruct b as [|c b]; cbn in H; [done|]. injection H as <- H.
    rewrite H, no_sb_occurs in Hx. done.
  - destruct b as [|c' b]; cbn in H.
    + injection H as -> H. destruct a as [|c a]; cbn in H; [done|]. injection H as -> H. rewrite <- H, no_sb_occurs in Hy. done.
    + injection H as _ H. by eapply IH.
Qed.
Lemma has_bracket_app a b : has_bracket (a +:+ b) = has_bracket a || has_bracket b.
Proof. induction a as [|c a IH]; [done|]. cbn. by rewrite IH, orb_assoc. Qed.
Lemma digits_bracket s : Forall (λ c, is_digit c = true) (list_ascii_of_string s) → has_bracket s = false.
Proof.
  induction s as [|c s IH]; intros H; [done|]. cbn in H. inversion H as [|? ? Hc Hs]; subst. cbn. rewrite IH by done.
  destruct (Ascii.eqb_spec c "["); [by subst|done].
Qed.
Lemma str_app_inj_r a b x : a +:+ x = b +:+ x → a = b.
Proof.
  revert b. induction a as [|c a IH]; intros [|c' b] H; [done| | |].
  - exfalso. apply (f_equal String.length) in H. cbn in H. rewrite str_len_app in H. lia.
  - exfalso. apply (f_equal String.length) in H. cbn in H. rewrite str_len_app in H. lia.
  - cbn in H. injection H as -> H. f_equal. by apply IH.
Qed.
Lemma no_sb_none x : has_bracket x = false → ∀ p, no_sb p x = true.
Proof.
  induction x as [|c x IH]; intros H p; [done|]. cbn in *. apply orb_false_iff in H as [H1 H2]. rewrite H1, andb_false_r. by apply IH.
Qed.
Lemma no_sb_handler x s : has_bracket x = false → ∀ p, no_sb p (x +:+ ".on_failure[" +:+ s) = no_sb false s.
Proof.
  induction x as [|c x IH]; intros H p; [cbn; by rewrite andb_false_r|]. cbn [has_bracket] in H. apply orb_false_iff in H as [H1 H2].
  cbn [String.append no_sb]. rewrite H1, andb_false_r. by apply IH.
Qed.
Lemma component_tail {CfgMap : Type} (emptyCfg : CfgMap) base i e ty id : component emptyCfg base i e ty id →
  (∀ t id', component emptyCfg base i e t id' → has_bracket t = false) → ∃ s, id = base +:+ "[" +:+ s ∧ no_sb false s = true.
Proof.
  induction 1 as [base i ty o|base i ty o j e t id Hj H IH]; intros Ht.
  - eexists. split; [reflexivity|]. apply no_sb_none. rewrite !has_bracket_app, digits_bracket by apply itoa_digits. cbn. eapply Ht. constructor.
  - destruct IH as (s & -> & Hs). { intros t' id' H'. eapply Ht. by eapply comp_handler. }
    exists (itoa (N.of_nat i) +:+ "]." +:+ ty +:+ ".on_failure[" +:+ s). split; [by rewrite !str_app_assoc|].
    assert (has_bracket (itoa (N.of_nat i) +:+ "]." +:+ ty) = false) as Hb.
    2:{ pose proof (no_sb_handler _ s Hb false) as Hn. rewrite !str_app_assoc in Hn. by rewrite Hn. }
    rewrite !has_bracket_app, digits_bracket by apply itoa_digits. cbn. eapply Ht. constructor.
Qed.
Lemma measured_id {CfgMap : Type} (emptyCfg : CfgMap) c1 c2 ty ty' id :
  (∀ t id', measured emptyCfg c1 t id' → has_bracket t = false) → (∀ t id', measured emptyCfg c2 t id' → has_bracket t = false) →
  measured emptyCfg c1 ty id → measured emptyCfg c2 ty' id → cf_id c1 = cf_id c2.
Proof.
  intros B1 B2 (i1 & e1 & E1 & H1) (i2 & e2 & E2 & H2).
  apply component_tail in H1 as (s1 & -> & N1). 2:{ intros t id' H. apply (B1 t id'). by exists i1, e1. }
  apply component_tail in H2 as (s2 & Heq & N2). 2:{ intros t id' H. apply (B2 t id'). by exists i2, e2. }
  rewrite !str_app_assoc in Heq.
  assert (s1 = s2) as ->.
  { apply (no_sb_split (cf_id c1 +:+ ".processor") (cf_id c2 +:+ ".processor")); [|done|done]. rewrite !str_app_assoc. exact Heq. }
  by apply str_app_inj_r in Heq.
Qed.
(** C49 for these processors, whatever the pipelines' ids: *)
Theorem C49_measured_ids : ∀ (CfgMap : Type) (emptyCfg : CfgMap) c1 c2 ty1 ty2 id1 id2,
  (∀ ty id, measured emptyCfg c1 ty id → has_bracket ty = false) → (∀ ty id, measured emptyCfg c2 ty id → has_bracket ty = false) →
  cf_id c1 ≠ cf_id c2 → measured emptyCfg c1 ty1 id1 → measured emptyCfg c2 ty2 id2 → id1 ≠ id2.
Proof. intros * B1 B2 Hne M1 M2 ->. apply Hne. by eapply measured_id. Qed.
Print Assumptions C49_measured_ids.
Lemma shows_measured {CfgMap : Type} (emptyCfg : CfgMap) ds ty id l n : shows emptyCfg ds ty id l (Some n) → ∃ c, ds !! n = Some c ∧ measured emptyCfg c ty id.
Proof. intros Hr. remember (Some n) as q eqn:Eq. induction Hr; simplify_eq; eauto. Qed.
Theorem C60_side_by_side : ∀ (CfgMap CfgVal : Type) (emptyCfg : CfgMap) (unpack : string → CfgMap → CfgVal + goerr) (reg : registry CfgVal proc) w l s,
  mrun emptyCfg unpack reg (mstart w) l = Ok s →
  (∀ c ty id, c ∈ built_pipes emptyCfg unpack reg l → measured emptyCfg c ty id → has_bracket ty = false) →
  NoDup (map cf_id (built_pipes emptyCfg unpack reg l)) →
  ∀ m ty id v, (m, ty, id, v) ∈ scrape s ↔
    valid_utf8 ty ∧ valid_utf8 id ∧ ∃ n c pl lg, ms_pipes s !! n = Some (c, pl, lg) ∧ on n l ∧ measured emptyCfg c ty id ∧ v = count id m lg.
Proof.
  intros * H Hdot Hnd m ty id v. destruct (C60_shown _ _ _ _ _ _ _ _ H) as [_ Hs]. rewrite Hs. clear Hs.
  pose proof (mrun_inv _ _ _ _ _ _ H) as [H1 _ _ _]. set (ds := built_pipes emptyCfg unpack reg l) in *.
  assert (∀ n1 n2 c1 c2, ds !! n1 = Some c1 → ds !! n2 = Some c2 → measured emptyCfg c1 ty id → measured emptyCfg c2 ty id → n1 = n2) as Huniq.
  { intros n1 n2 c1 c2 E1 E2 M1 M2.
    assert (cf_id c1 = cf_id c2) as Heq.
    { eapply measured_id; [| |exact M1|exact M2]; intros ty' id'; apply Hdot; by eapply elem_of_list_lookup_2. }
    eapply (NoDup_lookup (map cf_id ds)); [done|by rewrite list_lookup_fmap, E1|]. rewrite list_lookup_fmap, E2. cbn. by rewrite Heq. }
  assert (∀ l0 s0 n c, (∃ l1, l = l0 ++ l1) → mrun emptyCfg unpack reg (mstart w) l0 = Ok s0 → ds !! n = Some c →
    (shows emptyCfg ds ty id l0 (Some n) ↔ on n l0 ∧ measured emptyCfg c ty id)) as Hon.
  { intros l0. induction l0 as [|o l0 IH] using rev_ind; intros s0 n c [l1 Hl] Hrun Hn.
    - split; [intros Hs|intros [Hs _]]; inversion Hs; by destruct l0.
    - rewrite mrun_snoc in Hrun. destruct (mrun emptyCfg unpack reg (mstart w) l0) as [s1|] eqn:Er; [|done].
      assert (∃ l1, l = l0 ++ l1) as Hl0 by (exists (o :: l1); by rewrite Hl, <- app_assoc).
      specialize (IH s1 n c Hl0 eq_refl Hn).
      pose proof (mrun_inv _ _ _ _ _ _ Er) as [P1 P2 _ _].
      assert (built_pipes emptyCfg unpack reg l0 `prefix_of` ds) as Hpre by (destruct Hl0 as [l2 E]; unfold ds; rewrite E, built_pipes_app; by eexists).
      assert (∀ k, o = MRegister k ∨ o = MUnregister k → ∃ ck, ds !! k = Some ck ∧ (measured emptyCfg ck ty id ∨ ¬ measured emptyCfg ck ty id)) as Hk.
      { intros k Ho. assert (∃ x, ms_pipes s1 !! k = Some x) as [[[ck plk] lgk] Ek].
        { destruct Ho as [-> | ->]; cbn [mstep] in Hrun; destruct (ms_pipes s1 !! k); [by eexists|done|by eexists|done]. }
        exists ck. split; [by apply (pipes_ds _ _ _ _ _ P1 Hpre Ek)|]. eapply measured_dec; by eapply P2. }
      split.
      + intros Hs. inversion Hs as [|l' k ck Hs' Hck Hmk|l' k ck k' Hs' Hck Hmk|l' k ck r Hs' Hck Hmk|l' o' r Hs' Ho]; try (by destruct l0);
          match goal with E : _ ++ _ = _ ++ _ |- _ => apply app_inj_tail in E as [-> E] end; subst; simplify_eq.
        * split; [constructor|done].
        * apply IH in Hs' as [Hon Hm]. split; [|done]. apply on_still; [done|congruence].
        * apply IH in Hs' as [Hon Hm]. split; [|done]. apply on_still; [done|]. intros ->. by apply (Ho n c (or_intror eq_refl) Hn).
      + intros [Hon Hm]. inversion Hon as [l' E|l' o' Hon' Ho E]; apply app_inj_tail in E as [-> E]; subst.
        * destruct (mrun_inv _ _ _ _ _ _ Er) as [_ _ _ P4]. destruct (P4 ds ty id Hpre) as (r & Hr & _). destruct r as [k|].
          -- assert (∃ ck, ds !! k = Some ck ∧ measured emptyCfg ck ty id) as (ck & Hck & Hmk).
             { by eapply shows_measured. }
             assert (k = n) as -> by eauto. by eapply sh_later.
          -- by eapply sh_first.
        * assert (shows emptyCfg ds ty id l0 (Some n)) as Hs by (by apply IH).
          destruct o as [c'|k|k|k evt].
          -- apply sh_other; [done|]. by intros k' c'' [[=]|[=]].
          -- destruct (Hk k (or_introl eq_refl)) as (ck & Hck & [Hmk|Hmk]); [by eapply sh_later|]. apply sh_other; [done|].
             intros k' c' [[= <-]|[=]] Hc'. by simplify_eq.
          -- destruct (Hk k (or_intror eq_refl)) as (ck & Hck & [Hmk|Hmk]); [exfalso; apply Ho; f_equal; by eapply Huniq|]. apply sh_other; [done|].
             intros k' c' [[=]|[= <-]] Hc'. by simplify_eq.
          -- apply sh_other; [done|]. by intros k' c'' [[=]|[=]]. }
  split.
  - intros (Hv1 & Hv2 & n & c & pl & lg & Hs & Hn & ->). split_and!; try done. exists n, c, pl, lg.
    assert (ds !! n = Some c) as Hdn by (apply (pipes_ds _ _ _ _ _ H1 (reflexivity _) Hn)).
    apply (Hon l s n c (ex_intro _ [] (eq_sym (app_nil_r _))) H Hdn) in Hs as [??]. done.
  - intros (Hv1 & Hv2 & n & c & pl & lg & Hn & Ho & Hm & ->). split_and!; try done. exists n, c, pl, lg.
    assert (ds !! n = Some c) as Hdn by (apply (pipes_ds _ _ _ _ _ H1 (reflexivity _) Hn)). split_and!; try done.
    apply (Hon l s n c (ex_intro _ [] (eq_sym (app_nil_r _))) H Hdn). done.
Qed.
Print Assumptions C60_side_by_side.

(** Hypotheses are met by real programs: two pipelines, one unregistered again. *)
Definition two (id : string) : config nat := mkConfig id "" [ex_entry [[("t", None)]]] [].
Definition ex_world : world := mkWorld emptyHeap [newEvent] [] [].
Definition shown_by (l : list (mop nat)) : option (list (metric * string * string * nat)) :=
  match mrun 0 ex_unpack ex_reg (mstart ex_world) l with Ok s => Some (scrape s) | Panic => None end.
Example C60_ex :
  built_pipes 0 ex_unpack ex_reg [MNew (two "p"); MNew (two "q"); MRegister 0; MRegister 1; MProcess 1 (Some 0); MUnregister 0] = [two "p"; two "q"] ∧
  has_bracket "t" = false ∧
  shown_by [MNew (two "p"); MNew (two "q"); MRegister 0; MRegister 1; MProcess 1 (Some 0); MUnregister 0] =
  Some (concat (map (λ x : string * nat, [(MDiscarded, "t", fst x, 0); (MErrors, "t", fst x, 0); (MIn, "t", fst x, snd x); (MOut, "t", fst x, snd x)])
    [("q.processors[0].t", 1); ("q.processors[0].t.on_failure[0].t", 0)])).
Proof. split_and!; vm_compute; reflexivity. Qed.
(** Two pipelines with the same id, say before and after reloading a definition: the
    counters of the second are never shown, whatever it counts, *)
Theorem C60_reload_refuted :
  shown_by [MNew (two "p"); MNew (two "p"); MRegister 0; MRegister 1; MProcess 1 (Some 0)] =
  shown_by [MNew (two "p"); MRegister 0] ∧
  (∃ l, shown_by [MNew (two "p"); MRegister 0] = Some l ∧ (MIn, "t", "p.processors[0].t", 0) ∈ l).
Proof.
  split; [vm_compute; reflexivity|]. eexists. split; [vm_compute; reflexivity|]. right. right. left.
Qed.
Print Assumptions C60_reload_refuted.
(** and unregistering the first takes nothing of the second into view: nothing is shown
    although the second is still registered as far as the program knows. *)
Theorem C60_unregister_refuted :
  shown_by [MNew (two "p"); MNew (two "p"); MRegister 0; MRegister 1; MUnregister 0; MProcess 1 (Some 0)] = Some [] ∧
  shown_by [MNew (two "p"); MNew (two "p"); MRegister 0; MUnregister 1; MProcess 0 (Some 0)] = Some [].
Proof. split; vm_compute; reflexivity. Qed.
Print Assumptions C60_unregister_refuted.
(** With brackets in type names different ids are not enough. *)
Definition odd_reg : registry nat proc :=
  [("t", mkCtor "T" (λ c, Ok (mkProc (Ret None) (Some (mkCM 0 1 true None None)), None)) true);
   ("t.processors[0].t", mkCtor "O" (λ c, Ok (mkProc (Ret None) (Some (mkCM 0 1 true None None)), None)) true)].
Theorem C60_bracket_refuted : ∃ c1 c2 ty id,
  (∃ pl1, New 0 ex_unpack odd_reg c1 = Ok (inl pl1)) ∧ (∃ pl2, New 0 ex_unpack odd_reg c2 = Ok (inl pl2)) ∧
  cf_id c1 ≠ cf_id c2 ∧ measured 0 c1 ty id ∧ measured 0 c2 ty id.
Proof.
  exists (mkConfig "p" "" [[("t.processors[0].t", Some (OptCfg "" "" [[("t", None)]] 0))]] []),
    (mkConfig "p.processors[0].t" "" [[("t", Some (OptCfg "" "" [[("t", None)]] 0))]] []), "t", "p.processors[0].t.processors[0].t.on_failure[0].t".
  split; [eexists; vm_compute; reflexivity|]. split; [eexists; vm_compute; reflexivity|]. split; [done|]. split.
  - exists 0, [("t.processors[0].t", Some (OptCfg "" "" [[("t", None)]] 0))]. split; [done|]. apply (comp_handler 0 _ 0 _ _ 0 [("t", None)]); [done|].
    exact (comp_here 0 "p.processors[0].t.processors[0].t.on_failure" 0 "t" None).
  - exists 0, [("t", Some (OptCfg "" "" [[("t", None)]] 0))]. split; [done|]. apply (comp_handler 0 _ 0 _ _ 0 [("t", None)]); [done|].
    exact (comp_here 0 "p.processors[0].t.processors[0].t.on_failure" 0 "t" None).
Qed.
Print Assumptions C60_bracket_refuted.
