(** * Proofs about slices: the simulation. *)
From Verif Require Export Slices.

(** ** What one append does *)
Lemma poke_lookup A b i x b' :
  poke A b i x !! b' = if decide (b' = b) then (λ l, <[i := x]> l) <$> (A !! b) else A !! b'.
Proof.
  unfold poke. destruct (decide (b' = b)) as [->|Hne].
  - destruct (A !! b) as [l|] eqn:E; simpl.
    + apply list_lookup_insert. by eapply lookup_lt_Some.
    + apply lookup_ge_None in E. rewrite (list_insert_ge A b) by exact E. by apply lookup_ge_None.
  - by rewrite list_lookup_insert_ne by done.
Qed.

Lemma contents_poke_out A b i x s :
  (sl_back s = b → i < sl_off s ∨ sl_off s + sl_len s ≤ i) →
  contents_of (poke A b i x) s = contents_of A s.
Proof.
  intros H. unfold contents_of. rewrite poke_lookup.
  destruct (decide (sl_back s = b)) as [E|]; [|done].
  specialize (H E). rewrite E. destruct (A !! b) as [l|]; [|done]. simpl.
  destruct H as [H|H].
  - rewrite drop_insert_gt by lia. done.
  - rewrite drop_insert_le by lia. rewrite take_insert by lia. done.
Qed.

Lemma contents_length A s : slice_ok A s → length (contents_of A s) = sl_len s.
Proof.
  intros (H1 & l & E & H2). unfold contents_of. rewrite E. simpl.
  rewrite take_length, drop_length. lia.
Qed.

Lemma contents_app A X s : slice_ok A s → contents_of (A ++ X) s = contents_of A s.
Proof.
  intros (_ & l & E & _). unfold contents_of. rewrite lookup_app_l; [done|].
  by eapply lookup_lt_Some.
Qed.

Lemma slice_ok_app A X s : slice_ok A s → slice_ok (A ++ X) s.
Proof.
  intros (? & l & E & ?). split; [done|]. exists l. split; [|done].
  rewrite lookup_app_l; [done|]. by eapply lookup_lt_Some.
Qed.
Lemma slice_ok_poke A b i x s : slice_ok A s → slice_ok (poke A b i x) s.
Proof.
  intros (? & l & E & ?). split; [done|]. rewrite poke_lookup.
  destruct (decide (sl_back s = b)) as [<-|].
  - rewrite E. simpl. eexists. split; [done|]. by rewrite insert_length.
  - eauto.
Qed.

Lemma fresh_contents A l n : contents_of (A ++ [l ++ replicate n None]) (mkSlice (length A) 0 (length l) (length l + n)) = l.
Proof.
  unfold contents_of. simpl. rewrite list_lookup_middle by done. cbn [default from_option id]. rewrite drop_0. apply take_app.
Qed.
Lemma fresh_ok A l n : slice_ok (A ++ [l ++ replicate n None]) (mkSlice (length A) 0 (length l) (length l + n)).
Proof.
  split; simpl; [lia|]. eexists. split; [by rewrite list_lookup_middle|].
  rewrite app_length, replicate_length. lia.
Qed.

Lemma contents_append A s x : slice_ok A s → sl_len s < sl_cap s →
  contents_of (poke A (sl_back s) (sl_off s + sl_len s) x)
    (mkSlice (sl_back s) (sl_off s) (S (sl_len s)) (sl_cap s)) = contents_of A s ++ [x].
Proof.
  intros (H1 & l & E & H2) H. unfold contents_of. simpl. rewrite poke_lookup, decide_True by done.
  rewrite E. simpl. rewrite drop_insert_le by lia.
  replace (sl_off s + sl_len s - sl_off s) with (sl_len s) by lia.
  rewrite (take_S_r _ _ x).
  - by rewrite take_insert by lia.
  - apply list_lookup_insert. rewrite drop_length. lia.
Qed.

(** The header of value [p] after an append, and the arena. *)
Lemma go_append_self A s x n A' t : go_append A s x n = (A', t) →
  (∀ s', s = Some s' → slice_ok A s') →
  contents_of A' t = elems A s ++ [x] ∧ slice_ok A' t.
Proof.
  intros E Hok. destruct s as [s|]; simpl in E.
  - specialize (Hok s eq_refl). destruct (decide _) as [Hlt|Hge].
    + injection E as <- <-. split; [by apply contents_append|].
      destruct Hok as (H1 & l & El & H2). split; simpl; [lia|].
      rewrite poke_lookup, decide_True by done. rewrite El. simpl.
      eexists. split; [done|]. by rewrite insert_length.
    + unfold fresh_slice in E. injection E as <- <-. split; [apply fresh_contents|apply fresh_ok].
  - unfold fresh_slice in E. injection E as <- <-.
    split; [apply (fresh_contents A [x])|apply (fresh_ok A [x])].
Qed.

(** Any other slice. *)
Lemma go_append_other A s x n A' t u : go_append A s x n = (A', t) → slice_ok A u →
  (∀ s', s = Some s' → spare_slot s' (sl_back u) (sl_off s' + sl_len s') →
     ¬ (sl_off u ≤ sl_off s' + sl_len s' < sl_off u + sl_len u)) →
  contents_of A' u = contents_of A u ∧ slice_ok A' u.
Proof.
  intros E Hu Hs. destruct s as [s|]; simpl in E.
  - destruct (decide _) as [Hlt|Hge].
    + injection E as <- <-. split; [|by apply slice_ok_poke].
      apply contents_poke_out. intros Eb. specialize (Hs s eq_refl).
      unfold spare_slot in Hs. destruct (decide (sl_off u ≤ sl_off s + sl_len s < sl_off u + sl_len u)); [|lia].
      exfalso. apply Hs; [|done]. split; [done|lia].
    + unfold fresh_slice in E. injection E as <- <-. split; [by apply contents_app|by apply slice_ok_app].
  - unfold fresh_slice in E. injection E as <- <-. split; [by apply contents_app|by apply slice_ok_app].
Qed.

(** ** event.go's operations do not look at arrays *)
Definition fitted (hdr : list (option slice)) (A : arena) (h : heap) : heap :=
  mkHeap (fill hdr A (hvals h)) (hmaps h).
Lemma view_heap s : w_heap (view s) = fitted (sw_hdr s) (sw_arena s) (w_heap (sw_world s)).
Proof. done. Qed.

Lemma fill_lookup hdr A l p : length hdr = length l →
  fill hdr A l !! p =
    match l !! p, hdr !! p with Some v, Some t => Some (with_arr v (contents A t)) | _, _ => None end.
Proof.
  intros _. unfold fill. rewrite lookup_zip_with. destruct (l !! p); simpl; [|done]. by destruct (hdr !! p).
Qed.
Lemma fill_length hdr A l : length hdr = length l → length (fill hdr A l) = length l.
Proof. intros E. unfold fill. rewrite zip_with_length. lia. Qed.

Lemma deref_fitted hdr A h op : length hdr = length (hvals h) →
  deref (fitted hdr A h) op =
    match op, deref h op with
    | Some p, Ok v => Ok (with_arr v (contents A (default None (hdr !! p))))
    | _, _ => Panic
    end.
Proof.
  intros Hl. destruct op as [p|]; [|done]. simpl. rewrite fill_lookup by done.
  destruct (hvals h !! p) as [v|] eqn:E; [|done].
  destruct (lookup_lt_is_Some_2 hdr p) as [t Ht]; [|by rewrite Ht].
  rewrite Hl. by eapply lookup_lt_Some.
Qed.

Lemma map_of_fitted hdr A h r : map_of (fitted hdr A h) r = map_of h r.
Proof. done. Qed.

Lemma get_loop_cons h m k k' path : get_loop h m (k :: k' :: path) =
  match mget k (map_of h m) with
  | None => Ok None
  | Some op => match deref h op with
               | Panic => Panic
               | Ok inner => match map_of h (v_obj inner) with
                             | [] => Ok None | _ => get_loop h (v_obj inner) (k' :: path) end
               end
  end.
Proof. done. Qed.

Lemma get_loop_fitted hdr A h : length hdr = length (hvals h) → ∀ path m,
  get_loop (fitted hdr A h) m path = get_loop h m path.
Proof.
  intros Hl. induction path as [|k [|k' path] IH]; intros m; [done|done|].
  rewrite !get_loop_cons, map_of_fitted. destruct (mget k (map_of h m)) as [op|]; [|done].
  rewrite deref_fitted by done. destruct op as [p|]; [|done]. cbn [deref].
  destruct (hvals h !! p) as [v|]; [|done]. cbn [with_arr v_obj]. rewrite map_of_fitted, IH. done.
Qed.

(** [h'] is [h] with more values at the end, none of them with an array. *)
Definition extends (h h' : heap) : Prop :=
  ∃ l, hvals h' = hvals h ++ l ∧ Forall (λ v, v_arr v = None) l.
Lemma extends_refl h : extends h h.
Proof. exists []. rewrite app_nil_r. split; [done|apply List.Forall_nil]. Qed.
Lemma extends_trans h1 h2 h3 : extends h1 h2 → extends h2 h3 → extends h1 h3.
Proof.
  intros (l & E & F) (l' & E' & F'). exists (l ++ l'). rewrite E', E, app_assoc. split; [done|].
  by apply Forall_app.
Qed.
Lemma with_arr_none v : v_arr v = None → with_arr v None = v.
Proof. destruct v. simpl. by intros ->. Qed.

Lemma grow_fitted hdr A h h' : length hdr = length (hvals h) → extends h h' →
  length (grow_hdr hdr h') = length (hvals h') ∧
  fill (grow_hdr hdr h') A (hvals h') = fill hdr A (hvals h) ++ drop (length (hvals h)) (hvals h').
Proof.
  intros Hl (l & E & F). unfold grow_hdr. rewrite E, Hl.
  replace (length (hvals h ++ l) - length (hvals h)) with (length l) by (rewrite app_length; lia).
  split; [rewrite !app_length, replicate_length; lia|].
  unfold fill. rewrite zip_with_app by done. f_equal. rewrite drop_app.
  clear -F. induction F as [|v l Hv _ IH]; [done|]. cbn [length replicate zip_with contents]. by rewrite IH, with_arr_none.
Qed.

(** Allocations. *)
Lemma grow_refl hdr h : length hdr = length (hvals h) → grow_hdr hdr h = hdr.
Proof. intros E. unfold grow_hdr. rewrite E, Nat.sub_diag. by rewrite app_nil_r. Qed.
Lemma grow_grow hdr h0 h h' : length hdr = length (hvals h0) → extends h0 h → extends h h' →
  grow_hdr (grow_hdr hdr h) h' = grow_hdr hdr h'.
Proof.
  intros Hl (l0 & E0 & _) (l & E & _). assert (length hdr ≤ length (hvals h)) as Hle by (rewrite E0, app_length; lia).
  unfold grow_hdr. rewrite E, !app_length, replicate_length, <-app_assoc, <-replicate_add.
  do 2 f_equal. lia.
Qed.

Lemma alloc_val_fitted hdr A h v : length hdr = length (hvals h) → v_arr v = None →
  let h' := fst (alloc_val h v) in
  alloc_val (fitted hdr A h) v = (fitted (grow_hdr hdr h') A h', snd (alloc_val h v)) ∧ extends h h'.
Proof.
  intros Hl Hv. assert (extends h (fst (alloc_val h v))) as Hx.
  { exists [v]. split; [done|]. apply List.Forall_cons; [done|apply List.Forall_nil]. }
  split; [|done]. unfold alloc_val in *. cbn [fst snd] in *. cbn [fitted hvals hmaps].
  destruct (grow_fitted hdr A h _ Hl Hx) as [_ E]. rewrite fill_length by done. f_equal.
  unfold fitted. cbn [hvals hmaps] in *. rewrite E. by rewrite drop_app.
Qed.

Lemma extends_vals h h' : hvals h' = hvals h → extends h h'.
Proof. intros E. exists []. rewrite E, app_nil_r. split; [done|apply List.Forall_nil]. Qed.

Lemma fitted_grow_same hdr A h h' : length hdr = length (hvals h) → hvals h' = hvals h →
  fitted (grow_hdr hdr h') A h' = mkHeap (fill hdr A (hvals h)) (hmaps h').
Proof. intros Hl E. unfold fitted. rewrite grow_refl by (by rewrite E). by rewrite E. Qed.

Lemma alloc_map_fitted hdr A h : length hdr = length (hvals h) →
  let h' := fst (alloc_map h) in
  alloc_map (fitted hdr A h) = (fitted (grow_hdr hdr h') A h', snd (alloc_map h)) ∧ extends h h'.
Proof.
  intros Hl. split; [|by apply extends_vals]. unfold alloc_map at 1. simpl. f_equal.
  by rewrite (fitted_grow_same hdr A h).
Qed.

Lemma map_write_fitted hdr A h r k op : length hdr = length (hvals h) →
  map_write (fitted hdr A h) r k op =
    match map_write h r k op with Ok h' => Ok (fitted (grow_hdr hdr h') A h') | Panic => Panic end.
Proof.
  intros Hl. unfold map_write. destruct r as [r|]; [|done]. simpl.
  destruct (hmaps h !! r); [|done]. by rewrite (fitted_grow_same hdr A h).
Qed.
Lemma map_write_vals h r k op h' : map_write h r k op = Ok h' → extends h h'.
Proof.
  unfold map_write. destruct r as [r|]; [|done]. destruct (hmaps h !! r); [|done].
  intros [= <-]. by apply extends_vals.
Qed.
Lemma map_delete_fitted hdr A h r k : length hdr = length (hvals h) →
  map_delete (fitted hdr A h) r k = fitted (grow_hdr hdr (map_delete h r k)) A (map_delete h r k) ∧
  extends h (map_delete h r k).
Proof.
  intros Hl. unfold map_delete. destruct r as [r|]; simpl; [destruct (hmaps h !! r); simpl|].
  - split; [by rewrite (fitted_grow_same hdr A h)|by apply extends_vals].
  - split; [by rewrite (fitted_grow_same hdr A h)|apply extends_refl].
  - split; [by rewrite (fitted_grow_same hdr A h)|apply extends_refl].
Qed.

Lemma get_path_fitted hdr A h e path : length hdr = length (hvals h) →
  get_path (fitted hdr A h) e path =
    match get_path h e path with Ok (h', v) => Ok (fitted (grow_hdr hdr h') A h', v) | Panic => Panic end.
Proof.
  intros Hl. unfold get_path. rewrite map_of_fitted.
  destruct (map_of h (fields e)).
  - by rewrite (fitted_grow_same hdr A h).
  - destruct path.
    + destruct (alloc_val_fitted hdr A h (mkObject (fields e)) Hl eq_refl) as [E _].
      rewrite E. destruct (alloc_val h (mkObject (fields e))). done.
    + rewrite get_loop_fitted by done. destruct (get_loop h (fields e) _); [|done].
      by rewrite (fitted_grow_same hdr A h).
Qed.
Lemma get_path_extends h e path h' v : get_path h e path = Ok (h', v) → extends h h'.
Proof.
  unfold get_path. destruct (map_of h (fields e)); [intros [= <- _]; apply extends_refl|].
  destruct path.
  - intros [= <- _]. eexists [_]. split; [done|]. apply List.Forall_cons; [done|apply List.Forall_nil].
  - destruct (get_loop h (fields e) _); [|done]. intros [= <- _]. apply extends_refl.
Qed.

Lemma grow_len hdr h h' : length hdr = length (hvals h) → extends h h' → length (grow_hdr hdr h') = length (hvals h').
Proof. intros H1 H2. by destruct (grow_fitted hdr [] h h' H1 H2). Qed.

Lemma put_loop_cons full h m k k' path val : put_loop full h m (k :: k' :: path) val =
  match mget k (map_of h m) with
  | Some op =>
      match deref h op with
      | Panic => Panic
      | Ok inner =>
          if N.eqb (v_type inner) ObjectType
          then put_loop full h (v_obj inner) (k' :: path) val
          else Ok (h, Some (EWrap (errPathPrefix full) (ESent STargetKeyNotObject)))
      end
  | None =>
      let '(h1, r) := alloc_map h in
      let '(h2, p) := alloc_val h1 (mkObject (Some r)) in
      match map_write h2 m k (Some p) with
      | Panic => Panic
      | Ok h3 => put_loop full h3 (Some r) (k' :: path) val
      end
  end.
Proof. done. Qed.

Lemma put_loop_fitted A full val : ∀ path hdr h m, length hdr = length (hvals h) →
  put_loop full (fitted hdr A h) m path val =
    match put_loop full h m path val with
    | Ok (h', err) => Ok (fitted (grow_hdr hdr h') A h', err)
    | Panic => Panic
    end ∧ (∀ h' err, put_loop full h m path val = Ok (h', err) → extends h h').
Proof.
  induction path as [|k [|k' path] IH]; intros hdr h m Hl.
  - simpl. split; [by rewrite (fitted_grow_same hdr A h)|]. intros ? ? [= <- _]. apply extends_refl.
  - cbn [put_loop]. rewrite map_write_fitted by done.
    destruct (map_write h m k val) as [h'|] eqn:E; (split; [done|]); [|done].
    intros ? ? [= <- _]. by eapply map_write_vals.
  - rewrite !put_loop_cons, map_of_fitted. destruct (mget k (map_of h m)) as [op|].
    + rewrite deref_fitted by done. destruct op as [p|]; [|done]. cbn [deref].
      destruct (hvals h !! p) as [v|]; [|done]. cbn [with_arr v_obj v_type]. destruct (N.eqb (v_type v) ObjectType).
      * apply IH. done.
      * split; [by rewrite (fitted_grow_same hdr A h)|]. intros ? ? [= <- _]. apply extends_refl.
    + destruct (alloc_map_fitted hdr A h Hl) as [E1 X1]. rewrite E1. clear E1.
      destruct (alloc_map h) as [h1 r] eqn:Eh1. cbn [fst snd] in *.
      pose proof (grow_len hdr h h1 Hl X1) as L1.
      destruct (alloc_val_fitted (grow_hdr hdr h1) A h1 (mkObject (Some r)) L1 eq_refl) as [E2 X2]. rewrite E2. clear E2.
      destruct (alloc_val h1 (mkObject (Some r))) as [h2 p] eqn:Eh2. cbn [fst snd] in *.
      pose proof (grow_len _ _ _ L1 X2) as L2.
      rewrite map_write_fitted by done.
      destruct (map_write h2 m k (Some p)) as [h3|] eqn:E3; [|done].
      pose proof (map_write_vals _ _ _ _ _ E3) as X3. pose proof (grow_len _ _ _ L2 X3) as L3.
      destruct (IH _ h3 (Some r) L3) as [E4 X4].
      assert (extends h h3) as X by (apply (extends_trans h h1 h3); [exact X1|]; by apply (extends_trans h1 h2 h3)).
      split.
      * rewrite E4. destruct (put_loop full h3 (Some r) (k' :: path) val) as [[h' err]|] eqn:E5; [|done].
        specialize (X4 _ _ eq_refl).
        rewrite (grow_grow hdr h h1 h2) by done.
        assert (extends h h2) as X' by (by apply (extends_trans h h1 h2)).
        rewrite (grow_grow hdr h h2 h3) by done.
        rewrite (grow_grow hdr h h3 h') by done.
        done.
      * intros h' err E5. eapply extends_trans; [exact X|]. by eapply X4.
Qed.

Lemma put_fitted hdr A h e path val ow : length hdr = length (hvals h) →
  put (fitted hdr A h) e path val ow =
    match put h e path val ow with
    | Ok r => Ok (mkPut (fitted (grow_hdr hdr (put_heap r)) A (put_heap r)) (put_event r) (put_old r) (put_err r))
    | Panic => Panic
    end ∧ (∀ r, put h e path val ow = Ok r → extends h (put_heap r)).
Proof.
  intros Hl. unfold put. destruct path as [|k path].
  { split; [simpl; by rewrite (fitted_grow_same hdr A h)|]. intros ? [= <-]. apply extends_refl. }
  destruct val as [val|].
  2:{ split; [simpl; by rewrite (fitted_grow_same hdr A h)|]. intros ? [= <-]. apply extends_refl. }
  assert (∃ h1 e1, (match fields e with
            | None => let '(h1, r) := alloc_map h in (h1, mkEvent (Some r))
            | Some _ => (h, e) end) = (h1, e1) ∧
          (match fields e with
            | None => let '(h1, r) := alloc_map (fitted hdr A h) in (h1, mkEvent (Some r))
            | Some _ => (fitted hdr A h, e) end) = (fitted (grow_hdr hdr h1) A h1, e1) ∧ extends h h1)
    as (h1 & e1 & -> & -> & X1).
  { destruct (fields e).
    - do 2 eexists. split; [done|]. split; [by rewrite (fitted_grow_same hdr A h)|apply extends_refl].
    - destruct (alloc_map_fitted hdr A h Hl) as [E1 X1]. rewrite E1. destruct (alloc_map h) as [h1 r].
      do 2 eexists. split; [done|]. split; [done|exact X1]. }
  pose proof (grow_len hdr h h1 Hl X1) as L1. rewrite get_path_fitted by done.
  destruct (get_path h1 e1 (k :: path)) as [[h2 old]|] eqn:E2; [|done].
  pose proof (get_path_extends _ _ _ _ _ E2) as X2. pose proof (grow_len _ _ _ L1 X2) as L2.
  assert (extends h h2) as X by (by apply (extends_trans h h1 h2)).
  assert (grow_hdr (grow_hdr hdr h1) h2 = grow_hdr hdr h2) as G2.
  { by apply (grow_grow hdr h). }
  rewrite G2 in *.
  destruct ((match old with Some _ => true | None => false end) && negb ow).
  { split; [done|]. intros ? [= <-]. done. }
  destruct (put_loop_fitted A (k :: path) (Some val) (k :: path) (grow_hdr hdr h2) h2 (fields e1) L2) as [E3 X3].
  rewrite E3. destruct (put_loop (k :: path) h2 (fields e1) (k :: path) (Some val)) as [[h3 [err|]]|] eqn:E4; [| |done];
    specialize (X3 _ _ eq_refl);
    (rewrite (grow_grow hdr h h2 h3) by done);
    (split; [done|]); intros ? [= <-]; by apply (extends_trans h h2 h3).
Qed.

Lemma delete_fitted hdr A h e path : length hdr = length (hvals h) →
  delete_path (fitted hdr A h) e path =
    match delete_path h e path with Ok (h', v) => Ok (fitted (grow_hdr hdr h') A h', v) | Panic => Panic end ∧
  (∀ h' v, delete_path h e path = Ok (h', v) → extends h h').
Proof.
  intros Hl. unfold delete_path. destruct path as [|k path].
  { split; [by rewrite (fitted_grow_same hdr A h)|]. intros ? ? [= <- _]. apply extends_refl. }
  rewrite map_of_fitted. destruct (map_of h (fields e)).
  { split; [by rewrite (fitted_grow_same hdr A h)|]. intros ? ? [= <- _]. apply extends_refl. }
  rewrite get_path_fitted by done. destruct (get_path h e (k :: path)) as [[h1 v]|] eqn:E; [|done].
  pose proof (get_path_extends _ _ _ _ _ E) as X1. pose proof (grow_len _ _ _ Hl X1) as L1.
  destruct v; (split; [|intros ? ? [= <- _]]); try done.
  - destruct (map_delete_fitted (grow_hdr hdr h1) A h1 (fields e) k L1) as [-> X2].
    rewrite (grow_grow hdr h) by done. done.
  - eapply extends_trans; [exact X1|]. by destruct (map_delete_fitted (grow_hdr hdr h1) A h1 (fields e) k L1).
Qed.

(** ** States *)
Lemma with_arr_arr v a b : with_arr (with_arr v a) b = with_arr v b.
Proof. done. Qed.

Lemma view_with_world s w : extends (w_heap (sw_world s)) (w_heap w) →
  view (with_world s w) = set_heap w (fitted (grow_hdr (sw_hdr s) (w_heap w)) (sw_arena s) (w_heap w)).
Proof. done. Qed.

Lemma grow_lookup hdr h p t : grow_hdr hdr h !! p = Some (Some t) → hdr !! p = Some (Some t).
Proof.
  unfold grow_hdr. intros E. apply lookup_app_Some in E as [E|[_ E]]; [done|].
  apply lookup_replicate in E as [? _]. done.
Qed.

Lemma unshared_with_world s w : unshared s → extends (w_heap (sw_world s)) (w_heap w) → unshared (with_world s w).
Proof.
  intros [H1 H2 H3 H4] X. split.
  - by apply (grow_len _ (w_heap (sw_world s))).
  - destruct X as (l & E & F). simpl. rewrite E. by apply Forall_app.
  - simpl. intros p t E. apply grow_lookup in E. eauto.
  - simpl. intros p q t u b i Hne E1 E2. apply grow_lookup in E1, E2. eauto.
Qed.

Lemma fill_ext hdr hdr' A A' l : length hdr = length l → length hdr' = length l →
  (∀ p v t t', l !! p = Some v → hdr !! p = Some t → hdr' !! p = Some t' → contents A t = contents A' t') →
  fill hdr A l = fill hdr' A' l.
Proof.
  intros L1 L2 H. apply list_eq. intros p. rewrite !fill_lookup by done.
  destruct (l !! p) as [v|] eqn:E; [|done].
  assert (p < length l) as Hp by (by eapply lookup_lt_Some).
  destruct (lookup_lt_is_Some_2 hdr p) as [t Et]; [lia|]. destruct (lookup_lt_is_Some_2 hdr' p) as [t' Et']; [lia|].
  rewrite Et, Et'. by erewrite H.
Qed.

Lemma fill_insert hdr A l p v t : length hdr = length l → l !! p = Some v →
  fill (<[p := t]> hdr) A l = <[p := with_arr v (contents A t)]> (fill hdr A l).
Proof.
  intros L E. apply list_eq. intros q. rewrite fill_lookup by (by rewrite insert_length).
  assert (p < length l) as Hp by (by eapply lookup_lt_Some).
  destruct (decide (q = p)) as [->|Hne].
  - rewrite E, !list_lookup_insert; [done| |lia]. by rewrite fill_length.
  - rewrite !list_lookup_insert_ne by done. by rewrite fill_lookup.
Qed.

(** [s'] is [s] with [added] behind the elements of the array of [p]. *)
Definition appended (s s' : sworld) (p : ptr) (added : list (option ptr)) : Prop :=
  ∃ a, deref (w_heap (view s)) (Some p) = Ok a ∧
    view s' = set_heap (view s) (set_val (w_heap (view s)) p (with_arr a (Some (arr_of a ++ added)))).

Lemma appended_trans s1 s2 s3 p l l' : appended s1 s2 p l → appended s2 s3 p l' → appended s1 s3 p (l ++ l').
Proof.
  intros (a & E1 & V1) (b & E2 & V2). exists a. split; [done|]. rewrite V2, V1 in *. simpl in *.
  assert (p < length (fill (sw_hdr s1) (sw_arena s1) (hvals (w_heap (sw_world s1))))) as Hp.
  { destruct (fill _ _ _ !! p) eqn:E; [|done]. by eapply lookup_lt_Some. }
  rewrite list_lookup_insert in E2 by done. injection E2 as <-.
  unfold set_heap, set_val. simpl. rewrite list_insert_insert. unfold arr_of. simpl. by rewrite app_assoc.
Qed.

Lemma go_append_hdr A s x n A' t : go_append A s x n = (A', t) →
  (∃ s', s = Some s' ∧ sl_len s' < sl_cap s' ∧ sl_back t = sl_back s' ∧ sl_off t = sl_off s' ∧
         sl_len t = S (sl_len s') ∧ sl_cap t = sl_cap s') ∨
  sl_back t = length A.
Proof.
  destruct s as [s|]; simpl; [destruct (decide _)|]; unfold fresh_slice; intros [= <- <-]; eauto 10.
Qed.

(** What [go_append] on the array of [p] leaves of a slice [r]'s window, when the
    spare capacity of [p] is outside it. *)
Definition clear_of (t : option slice) (r : slice) : Prop :=
  ∀ t' i, t = Some t' → spare_slot t' (sl_back r) i → ¬ (sl_off r ≤ i < sl_off r + sl_len r).

Lemma append_at_ok s p cur x : unshared s → sw_hdr s !! p = Some cur →
  unshared (append_at s p cur x) ∧ appended s (append_at s p cur x) p [x] ∧
  sw_hdr (append_at s p cur x) !! p = Some (Some (snd (go_append (sw_arena s) cur x (next_spare s)))) ∧
  (∀ r, slice_ok (sw_arena s) r → clear_of cur r →
     slice_ok (sw_arena (append_at s p cur x)) r ∧
     contents_of (sw_arena (append_at s p cur x)) r = contents_of (sw_arena s) r ∧
     clear_of (Some (snd (go_append (sw_arena s) cur x (next_spare s)))) r).
Proof.
  intros [H1 H2 H3 H4] Hp. unfold append_at.
  destruct (go_append (sw_arena s) cur x (next_spare s)) as [A' t] eqn:E. cbn [snd].
  assert (∀ s', cur = Some s' → slice_ok (sw_arena s) s') as Hcur by (intros s' ->; eauto).
  destruct (go_append_self _ _ _ _ _ _ E Hcur) as [Ct Ot].
  assert (p < length (sw_hdr s)) as Lp by (by eapply lookup_lt_Some).
  assert (∀ r, slice_ok (sw_arena s) r → clear_of cur r →
     slice_ok A' r ∧ contents_of A' r = contents_of (sw_arena s) r ∧ clear_of (Some t) r) as Hclear.
  { intros r Or Cr. destruct (go_append_other _ _ _ _ _ _ r E Or) as [Cr' Or'].
    { intros s' Es' Hs'. by apply (Cr s' _ Es' Hs'). }
    split; [done|]. split; [done|]. intros t' i [= <-] [Hb Hi].
    destruct (go_append_hdr _ _ _ _ _ _ E) as [(s' & -> & Hlt & Eb & Eo & El & Ec)|Eb].
    - apply (Cr s' i eq_refl). split; [congruence|]. rewrite Eo, El, Ec in Hi. lia.
    - exfalso. destruct Or as (_ & l & El & _). apply lookup_lt_Some in El. lia. }
  assert (∀ q u, q ≠ p → sw_hdr s !! q = Some (Some u) → slice_ok A' u ∧ contents_of A' u = contents_of (sw_arena s) u) as Hothers.
  { intros q u Hne Eq. destruct (Hclear u) as (? & ? & _); [by eauto| |done].
    intros t' i -> Ht' Hin. eapply (H4 p q t' u (sl_back u) i); eauto. split; [done|].
    destruct (H3 _ _ Eq) as [? _]. lia. }
  split; [|split; [|split]].
  - split; simpl.
    + by rewrite insert_length.
    + done.
    + intros q u Eq. destruct (decide (q = p)) as [->|Hne].
      * rewrite list_lookup_insert in Eq by done. by injection Eq as <-.
      * rewrite list_lookup_insert_ne in Eq by done. by apply (Hothers q u).
    + intros q q' u u' b i Hne Eq Eq' Hsp Hh.
      destruct (go_append_hdr _ _ _ _ _ _ E) as [(s' & -> & Hlt & Eb & Eo & El & Ec)|Eb].
      * assert (∀ q u, <[p:=Some t]> (sw_hdr s) !! q = Some (Some u) → ∃ u0, sw_hdr s !! q = Some (Some u0) ∧
          (∀ b i, spare_slot u b i → spare_slot u0 b i) ∧ (∀ b i, holds_slot u b i → holds_slot u0 b i)) as Hback.
        { intros q0 u0 E0. destruct (decide (q0 = p)) as [->|Hne0].
          - rewrite list_lookup_insert in E0 by done. injection E0 as <-. exists s'. split; [done|].
            unfold spare_slot, holds_slot. rewrite Eb, Eo, El, Ec. split; intros; lia.
          - rewrite list_lookup_insert_ne in E0 by done. eauto. }
        destruct (Hback _ _ Eq) as (u0 & E0 & Hs0 & _), (Hback _ _ Eq') as (u0' & E0' & _ & Hh0').
        by eapply (H4 q q' u0 u0' b i); eauto.
      * destruct (decide (q = p)) as [->|Hq].
        { rewrite list_lookup_insert in Eq by done. injection Eq as <-.
          rewrite list_lookup_insert_ne in Eq' by done. destruct Hsp as [<- _], Hh as [Hh _].
          destruct (H3 _ _ Eq') as (_ & l & El & _). apply lookup_lt_Some in El. lia. }
        rewrite list_lookup_insert_ne in Eq by done.
        destruct (decide (q' = p)) as [->|Hq'].
        { rewrite list_lookup_insert in Eq' by done. injection Eq' as <-.
          destruct Hsp as [<- _], Hh as [Hh _].
          destruct (H3 _ _ Eq) as (_ & l & El & _). apply lookup_lt_Some in El. lia. }
        rewrite list_lookup_insert_ne in Eq' by done. by eapply (H4 q q' u u' b i).
  - destruct (lookup_lt_is_Some_2 (hvals (w_heap (sw_world s))) p) as [v Ev]; [lia|].
    exists (with_arr v (contents (sw_arena s) cur)). split.
    { rewrite view_heap, deref_fitted by done. simpl. by rewrite Ev, Hp. }
    unfold view. simpl. unfold set_heap, set_val. simpl. f_equal. f_equal.
    rewrite with_arr_arr. rewrite (fill_insert _ _ _ _ v) by done. simpl. rewrite Ct.
    replace (arr_of (with_arr v (contents (sw_arena s) cur))) with (elems (sw_arena s) cur) by (by destruct cur).
    apply list_eq. intros q. destruct (decide (q = p)) as [->|Hne].
    { rewrite !list_lookup_insert; [done| |]; rewrite fill_length by done; lia. }
    rewrite !list_lookup_insert_ne by done. rewrite !fill_lookup by done.
    destruct (hvals (w_heap (sw_world s)) !! q); [|done]. destruct (sw_hdr s !! q) as [[u|]|] eqn:Eq; [|done|done].
    simpl. do 2 f_equal. by destruct (Hothers q u) as [_ ->].
  - simpl. by rewrite list_lookup_insert.
  - exact Hclear.
Qed.

Lemma contents_lookup A r i x : slice_ok A r → contents_of A r !! i = Some x →
  default [] (A !! sl_back r) !! (sl_off r + i) = Some x.
Proof.
  unfold contents_of. intros _ E. rewrite lookup_take_Some in E. destruct E as [E _]. by rewrite lookup_drop in E.
Qed.

Lemma append_range_ok p r : ∀ n i s cur, unshared s → sw_hdr s !! p = Some cur → slice_ok (sw_arena s) r →
  clear_of cur r → i + n ≤ sl_len r → n ≠ 0 →
  unshared (append_range s p r i n) ∧ appended s (append_range s p r i n) p (take n (drop i (contents_of (sw_arena s) r))).
Proof.
  induction n as [|n IH]; intros i s cur Hu Hp Hr Hc Hle Hn; [done|]. cbn [append_range].
  rewrite Hp. cbn [default from_option id].
  destruct (lookup_lt_is_Some_2 (contents_of (sw_arena s) r) i) as [x Ex]; [rewrite contents_length by done; lia|].
  rewrite (contents_lookup _ _ _ _ Hr Ex). cbn [default from_option id].
  destruct (append_at_ok s p cur x Hu Hp) as (Hu' & Ha & Hp' & Hkeep).
  destruct (Hkeep r Hr Hc) as (Hr' & Er' & Hc').
  rewrite (drop_S _ _ _ Ex). cbn [take].
  destruct n as [|n].
  - cbn [append_range take]. done.
  - destruct (IH (S i) _ _ Hu' Hp' Hr' Hc') as [Hu2 Ha2]; [lia|done|]. split; [done|].
    rewrite Er' in Ha2. by apply (appended_trans _ _ _ p [x] _ Ha).
Qed.

(** ** The simulation *)
Definition sview {A} (r : sres A) : option (Outcome (world * pevent * A)) :=
  match r with
  | SOk s pe a => Some (Ok (view s, pe, a))
  | SPan => Some Panic
  | Shared => None
  end.
Definition simulates {A} (r : sres A) (o : Outcome (world * pevent * A)) : Prop :=
  (∀ x, sview r = Some x → o = x) ∧ (∀ s pe a, r = SOk s pe a → unshared s).

Lemma evt_of_view s pe : evt_of (view s) pe = evt_of (sw_world s) pe.
Proof. done. Qed.

Lemma sim_panic {A} : simulates (A:=A) SPan Panic.
Proof. split; [by intros x [= <-]|done]. Qed.

Lemma deref_view s p v t : unshared s → deref (w_heap (sw_world s)) p = Ok v → hdr_of s p = Some t →
  deref (w_heap (view s)) p = Ok (with_arr v (contents (sw_arena s) t)).
Proof.
  intros Hu E1 E2. rewrite view_heap, deref_fitted by apply Hu. destruct p as [p|]; [|done].
  rewrite E1. simpl in E2. by rewrite E2.
Qed.
Lemma deref_view_none s p : unshared s → deref (w_heap (sw_world s)) p = Panic ∨ hdr_of s p = None →
  deref (w_heap (view s)) p = Panic.
Proof.
  intros Hu H. rewrite view_heap, deref_fitted by apply Hu. destruct p as [p|]; [|done].
  destruct H as [->|H]; [done|]. simpl in H. apply lookup_ge_None in H. rewrite (us_len s Hu) in H.
  simpl. by rewrite (lookup_ge_None_2 _ _ H).
Qed.
Lemma hdr_deref s p t : unshared s → hdr_of s (Some p) = Some t →
  ∃ v, hvals (w_heap (sw_world s)) !! p = Some v ∧ deref (w_heap (view s)) (Some p) = Ok (with_arr v (contents (sw_arena s) t)).
Proof.
  intros Hu E. assert (p < length (hvals (w_heap (sw_world s)))) as Hp.
  { rewrite <-(us_len s Hu). by eapply lookup_lt_Some. }
  destruct (lookup_lt_is_Some_2 _ _ Hp) as [v Ev]. exists v. split; [done|].
  apply deref_view; [done| |done]. simpl. by rewrite Ev.
Qed.

Lemma slice_unshared s p q t i j : unshared s → sw_hdr s !! q = Some (Some t) →
  i ≤ j → j ≤ sl_len t → p < length (sw_hdr s) →
  unshared (mkSW (sw_world s) (<[p := Some (mkSlice (sl_back t) (sl_off t + i) (j - i) (j - i))]> (sw_hdr s))
             (sw_arena s) (sw_spare s)).
Proof.
  intros [H1 H2 H3 H4] Eq Hi Hj Hp. split; simpl.
  - by rewrite insert_length.
  - done.
  - intros r u Er. destruct (decide (r = p)) as [->|Hne].
    + rewrite list_lookup_insert in Er by done. injection Er as <-.
      destruct (H3 _ _ Eq) as (Hlc & l & El & Hl). split; simpl; [lia|]. exists l. split; [done|lia].
    + rewrite list_lookup_insert_ne in Er by done. eauto.
  - intros r r' u u' b k Hne Er Er' Hsp Hh.
    destruct (decide (r = p)) as [->|Hr].
    { rewrite list_lookup_insert in Er by done. injection Er as <-. destruct Hsp as [_ Hsp]. simpl in Hsp. lia. }
    rewrite list_lookup_insert_ne in Er by done.
    destruct (decide (r' = p)) as [->|Hr'].
    + rewrite list_lookup_insert in Er' by done. injection Er' as <-. destruct Hh as [<- Hh]. simpl in *.
      destruct (H3 _ _ Eq) as (Hlc & _).
      destruct (decide (r = q)) as [->|Hrq].
      * rewrite Eq in Er. injection Er as <-. destruct Hsp as [_ Hsp]. lia.
      * eapply (H4 r q u t _ k Hrq Er Eq Hsp). split; [done|lia].
    + rewrite list_lookup_insert_ne in Er' by done. by eapply (H4 r r' u u' b k).
Qed.
Lemma nil_unshared s p : unshared s →
  unshared (mkSW (sw_world s) (<[p := None]> (sw_hdr s)) (sw_arena s) (sw_spare s)).
Proof.
  intros [H1 H2 H3 H4]. assert (∀ r u, <[p := None]> (sw_hdr s) !! r = Some (Some u) → sw_hdr s !! r = Some (Some u)) as H.
  { intros r u E. destruct (decide (r = p)) as [->|]; [|by rewrite list_lookup_insert_ne in E].
    apply list_lookup_insert_Some in E as [(_ & [=] & _)|(? & _)]; done. }
  split; simpl; [by rewrite insert_length|done|eauto|].
  intros r r' u u' b k Hne Er Er'. eauto.
Qed.
Lemma set_hdr_view s p t v : unshared s → hvals (w_heap (sw_world s)) !! p = Some v →
  view (mkSW (sw_world s) (<[p := t]> (sw_hdr s)) (sw_arena s) (sw_spare s)) =
  set_heap (view s) (set_val (w_heap (view s)) p (with_arr v (contents (sw_arena s) t))).
Proof.
  intros Hu Ev. unfold view, set_heap, set_val. simpl. f_equal. f_equal. apply fill_insert; [apply Hu|done].
Qed.

Lemma with_world_sim s w : unshared s → extends (w_heap (sw_world s)) (w_heap w) →
  unshared (with_world s w) ∧
  view (with_world s w) = set_heap w (fitted (grow_hdr (sw_hdr s) (w_heap w)) (sw_arena s) (w_heap w)).
Proof. intros. split; [by apply unshared_with_world|done]. Qed.

Lemma store_run {A} s p a (v : Value) (k : prog A) pe : unshared s → deref (w_heap (view s)) (Some p) = Ok a →
  run_prog (PStore (Some p) v k) (view s) pe = run_prog k (set_heap (view s) (set_val (w_heap (view s)) p v)) pe.
Proof.
  intros Hu E. cbn [run_prog]. rewrite decide_True; [done|]. simpl in E.
  destruct (fill _ _ _ !! p) eqn:E'; [|done]. by eapply lookup_lt_Some.
Qed.

Theorem simulation {A} (c : sprog A) : ∀ s pe, unshared s →
  simulates (run_s true c s pe) (run_prog (abs c) (view s) pe).
Proof.
  induction c as [a|key v k IH|key v k IH|key k IH|key k IH|k IH|k IH|v k IH|l k IH|p k IH|p v k IH
                 |p x k IH|p q k IH|p q i j m k IH|k IH|r k IH|r key v k IH|r key k IH|k IH|];
    intros s pe Hu; pose proof (us_len s Hu) as Hl.
  - cbn. split; [by intros x [= <-]|]. by intros ? ? ? [= <- <- <-].
  - cbn [run_s abs run_prog]. rewrite evt_of_view. destruct (evt_of (sw_world s) pe) as [[i e]|]; [|apply sim_panic].
    rewrite view_heap. unfold Put.
    destruct (put_fitted (sw_hdr s) (sw_arena s) (w_heap (sw_world s)) e (keyToPath key) v true Hl) as [-> X].
    destruct (put (w_heap (sw_world s)) e (keyToPath key) v true) as [r|]; [|apply sim_panic].
    specialize (X r eq_refl). destruct r as [h e' old err]. cbn [put_heap put_event put_old put_err] in *.
    set (w := mkWorld h (<[i := e']> (w_events (sw_world s))) (w_env (sw_world s)) (w_log (sw_world s))).
    destruct (with_world_sim s w Hu X) as [Hu' Hv]. specialize (IH old err _ pe Hu'). rewrite Hv in IH. exact IH.
  - cbn [run_s abs run_prog]. rewrite evt_of_view. destruct (evt_of (sw_world s) pe) as [[i e]|]; [|apply sim_panic].
    rewrite view_heap. unfold TryPut.
    destruct (put_fitted (sw_hdr s) (sw_arena s) (w_heap (sw_world s)) e (keyToPath key) v false Hl) as [-> X].
    destruct (put (w_heap (sw_world s)) e (keyToPath key) v false) as [r|]; [|apply sim_panic].
    specialize (X r eq_refl). destruct r as [h e' old err]. cbn [put_heap put_event put_old put_err] in *.
    set (w := mkWorld h (<[i := e']> (w_events (sw_world s))) (w_env (sw_world s)) (w_log (sw_world s))).
    destruct (with_world_sim s w Hu X) as [Hu' Hv]. specialize (IH old err _ pe Hu'). rewrite Hv in IH. exact IH.
  - cbn [run_s abs run_prog]. rewrite evt_of_view. destruct (evt_of (sw_world s) pe) as [[i e]|]; [|apply sim_panic].
    rewrite view_heap. unfold Get. rewrite get_path_fitted by done.
    destruct (get_path (w_heap (sw_world s)) e (keyToPath key)) as [[h v]|] eqn:E; [|apply sim_panic].
    apply get_path_extends in E. destruct (with_world_sim s (set_heap (sw_world s) h) Hu E) as [Hu' Hv].
    specialize (IH v _ pe Hu'). rewrite Hv in IH. exact IH.
  - cbn [run_s abs run_prog]. rewrite evt_of_view. destruct (evt_of (sw_world s) pe) as [[i e]|]; [|apply sim_panic].
    rewrite view_heap. unfold EvDelete.
    destruct (delete_fitted (sw_hdr s) (sw_arena s) (w_heap (sw_world s)) e (keyToPath key) Hl) as [-> X].
    destruct (delete_path (w_heap (sw_world s)) e (keyToPath key)) as [[h v]|]; [|apply sim_panic].
    specialize (X _ _ eq_refl). destruct (with_world_sim s (set_heap (sw_world s) h) Hu X) as [Hu' Hv].
    specialize (IH v _ pe Hu'). rewrite Hv in IH. exact IH.
  - cbn [run_s abs run_prog]. by apply IH.
  - cbn [run_s abs run_prog]. by apply IH.
  - cbn [run_s abs run_prog]. rewrite view_heap.
    destruct (alloc_val_fitted (sw_hdr s) (sw_arena s) (w_heap (sw_world s)) (with_arr v None) Hl eq_refl) as [-> X].
    destruct (alloc_val (w_heap (sw_world s)) (with_arr v None)) as [h p]. cbn [fst snd] in *.
    destruct (with_world_sim s (set_heap (sw_world s) h) Hu X) as [Hu' Hv].
    specialize (IH p _ pe Hu'). rewrite Hv in IH. exact IH.
  - cbn [run_s abs run_prog].
    assert (extends (w_heap (sw_world s)) (fst (alloc_val (w_heap (sw_world s)) (mkArray [])))) as X.
    { exists [mkArray []]. split; [done|]. apply List.Forall_cons; [done|apply List.Forall_nil]. }
    destruct (alloc_val_fitted (sw_hdr s) (sw_arena s) (w_heap (sw_world s)) (mkArray []) Hl eq_refl) as [E _].
    destruct (alloc_val (w_heap (sw_world s)) (mkArray [])) as [h p] eqn:Ea. cbn [fst snd] in *.
    destruct (with_world_sim s (set_heap (sw_world s) h) Hu X) as [Hu' Hv].
    destruct l as [|x l].
    + rewrite view_heap, E. specialize (IH p _ pe Hu'). rewrite Hv in IH. exact IH.
    + unfold fresh_slice. cbn [Nat.add].
      set (l0 := x :: l) in *. set (s1 := with_world s (set_heap (sw_world s) h)) in *.
      set (t := mkSlice (length (sw_arena s)) 0 (length l0) (length l0 + next_spare s)).
      set (A' := sw_arena s ++ [l0 ++ replicate (next_spare s) None]).
      injection Ea as Eh Ep.
      assert (sw_hdr s1 = sw_hdr s ++ [None]) as Ehdr.
      { unfold s1, with_world. cbn [sw_hdr]. unfold grow_hdr. rewrite <-Eh. simpl. rewrite app_length, Hl. simpl.
        replace (length (hvals (w_heap (sw_world s))) + 1 - length (hvals (w_heap (sw_world s)))) with 1 by lia. done. }
      assert (<[p := Some t]> (sw_hdr s1) = sw_hdr s ++ [Some t]) as Ehdr'.
      { rewrite Ehdr, <-Ep, <-Hl. rewrite insert_app_r_alt, Nat.sub_diag by lia. done. }
      destruct Hu as [H1 H2 H3 H4].
      assert (unshared (mkSW (sw_world s1) (<[p := Some t]> (sw_hdr s1)) A' (tl (sw_spare s)))) as Hu2.
      { split; cbn [sw_world sw_hdr sw_arena].
        - rewrite insert_length. apply Hu'.
        - apply Hu'.
        - rewrite Ehdr'. intros q u Eq. apply lookup_app_Some in Eq as [Eq|[_ Eq]].
          + apply slice_ok_app. eauto.
          + apply list_lookup_singleton_Some in Eq as [_ [= <-]]. apply fresh_ok.
        - rewrite Ehdr'. intros q q' u u' b i Hne Eq Eq' Hsp Hh.
          apply lookup_app_Some in Eq as [Eq|[G Eq]]; apply lookup_app_Some in Eq' as [Eq'|[G' Eq']].
          + by apply (H4 q q' u u' b i Hne Eq Eq' Hsp).
          + apply list_lookup_singleton_Some in Eq' as [_ [= <-]]. destruct Hh as [<- _], Hsp as [Hb _].
            destruct (H3 _ _ Eq) as (_ & l' & El & _). apply lookup_lt_Some in El. simpl in Hb. lia.
          + apply list_lookup_singleton_Some in Eq as [_ [= <-]]. destruct Hh as [Hb _], Hsp as [<- _].
            destruct (H3 _ _ Eq') as (_ & l' & El & _). apply lookup_lt_Some in El. simpl in Hb. lia.
          + apply list_lookup_singleton_Some in Eq as [? _], Eq' as [? _]. lia. }
      specialize (IH p _ pe Hu2).
      assert (view (mkSW (sw_world s1) (<[p:=Some t]> (sw_hdr s1)) A' (tl (sw_spare s))) =
              set_heap (view s) (fst (alloc_val (w_heap (view s)) (mkArray l0)))) as Hv2.
      { unfold view, alloc_val. cbn [sw_world sw_hdr sw_arena w_heap set_heap fst hvals hmaps]. unfold set_heap.
        rewrite Ehdr'. unfold s1, with_world. cbn [sw_world]. rewrite <-Eh. cbn [w_heap w_events w_env w_log hvals hmaps set_heap]. f_equal. f_equal.
        unfold fill. rewrite zip_with_app by done. f_equal.
        - apply fill_ext; [done|done|]. intros q v0 t0 t0' _ Et0 Et0'. rewrite Et0 in Et0'. injection Et0' as <-.
          destruct t0 as [t0|]; [|done]. simpl. f_equal. apply contents_app. eauto.
        - simpl. unfold t, A'. rewrite (fresh_contents (sw_arena s) l0). done. }
      rewrite Hv2 in IH. cbn [fst] in IH.
      replace (alloc_val (w_heap (view s)) (mkArray l0)) with
        (mkHeap (hvals (w_heap (view s)) ++ [mkArray l0]) (hmaps (w_heap (view s))), p).
      * exact IH.
      * unfold alloc_val. f_equal. rewrite <-Ep. simpl. by rewrite fill_length.
  - cbn [run_s abs run_prog].
    destruct (deref (w_heap (sw_world s)) p) as [v|] eqn:E1.
    2:{ rewrite (deref_view_none s p Hu) by auto. apply sim_panic. }
    destruct (hdr_of s p) as [t|] eqn:E2.
    2:{ rewrite (deref_view_none s p Hu) by auto. apply sim_panic. }
    rewrite (deref_view s p v t Hu E1 E2). by apply IH.
  - cbn [run_s abs]. destruct p as [q|]; [|apply sim_panic].
    destruct (decide (q < length (hvals (w_heap (sw_world s))))) as [Hq|Hq].
    2:{ cbn [run_prog]. rewrite (deref_view_none s (Some q) Hu); [apply sim_panic|]. left. simpl.
        by rewrite (lookup_ge_None_2 (hvals (w_heap (sw_world s)))) by lia. }
    destruct (lookup_lt_is_Some_2 (sw_hdr s) q) as [t Et]; [lia|].
    destruct (hdr_deref s q t Hu Et) as (v0 & Ev0 & Ed).
    cbn [run_prog]. rewrite Ed. rewrite decide_True by (simpl; by rewrite fill_length).
    assert (unshared (mkSW (set_heap (sw_world s) (set_val (w_heap (sw_world s)) q (with_arr v None))) (sw_hdr s) (sw_arena s) (sw_spare s))) as Hu2.
    { destruct Hu as [H1 H2 H3 H4]. split; cbn [sw_world sw_hdr sw_arena set_heap w_heap set_val hvals].
      - by rewrite insert_length.
      - apply Forall_insert; done.
      - done.
      - done. }
    specialize (IH _ pe Hu2).
    replace (set_heap (view s) (set_val (w_heap (view s)) q (with_arr v (v_arr (with_arr v0 (contents (sw_arena s) t))))))
      with (view (mkSW (set_heap (sw_world s) (set_val (w_heap (sw_world s)) q (with_arr v None))) (sw_hdr s) (sw_arena s) (sw_spare s))); [exact IH|].
    unfold view, set_heap, set_val. simpl. f_equal. f_equal. apply list_eq. intros q'.
    rewrite fill_lookup by (by rewrite insert_length). destruct (decide (q' = q)) as [->|Hne].
    + rewrite !list_lookup_insert by (rewrite ?fill_length by done; lia). by rewrite Et.
    + rewrite !list_lookup_insert_ne by done. by rewrite fill_lookup.
  - cbn [run_s abs]. destruct p as [p|]; [|apply sim_panic].
    destruct (hdr_of s (Some p)) as [t|] eqn:E.
    2:{ cbn [run_prog]. rewrite (deref_view_none s (Some p) Hu) by auto. apply sim_panic. }
    destruct (append_at_ok s p t x Hu E) as (Hu2 & (a & Ea & Hv) & _).
    specialize (IH _ pe Hu2). rewrite Hv in IH.
    change (run_prog _ (view s) pe) with
      (match deref (w_heap (view s)) (Some p) with Panic => Panic | Ok v => run_prog (PStore (Some p) (with_arr v (Some (arr_of v ++ [x]))) (abs k)) (view s) pe end).
    rewrite Ea. rewrite (store_run s p a) by done. exact IH.
  - cbn [run_s abs].
    change (run_prog _ (view s) pe) with
      (match deref (w_heap (view s)) q with Panic => Panic | Ok b => run_prog (match arr_of b with [] => abs k
         | l => PLoad p (λ a, PStore p (with_arr a (Some (arr_of a ++ l))) (abs k)) end) (view s) pe end).
    destruct (hdr_of s q) as [r|] eqn:Eq.
    2:{ rewrite (deref_view_none s q Hu) by auto. apply sim_panic. }
    destruct q as [q|]; [|done].
    destruct (hdr_deref s q r Hu Eq) as (vb & Evb & Edb). rewrite Edb.
    destruct r as [r|]; [|by apply IH].
    assert (slice_ok (sw_arena s) r) as Hr by (by eapply (us_ok s Hu)).
    pose proof (contents_length _ _ Hr) as Hlen.
    replace (arr_of (with_arr vb (contents (sw_arena s) (Some r)))) with (contents_of (sw_arena s) r) by done.
    destruct (sl_len r) as [|n] eqn:En.
    { destruct (contents_of (sw_arena s) r); [by apply IH|done]. }
    destruct (contents_of (sw_arena s) r) as [|x0 l0] eqn:Ec; [done|].
    destruct p as [p|]; [|apply sim_panic].
    destruct (hdr_of s (Some p)) as [t|] eqn:Ep.
    2:{ cbn [run_prog]. rewrite (deref_view_none s (Some p) Hu) by auto. apply sim_panic. }
    assert (clear_of t r) as Hc.
    { intros t' i -> Hsp Hin. destruct (decide (p = q)) as [->|Hne].
      - rewrite Eq in Ep. injection Ep as <-. destruct Hsp as [_ Hsp]. lia.
      - eapply (us_sole s Hu p q t' r (sl_back r) i Hne Ep Eq Hsp). split; [done|]. destruct Hr as [? _]. lia. }
    destruct (append_range_ok p r (S n) 0 s t Hu Ep Hr Hc) as [Hu2 (a & Ea & Hv)]; [lia|done|].
    rewrite drop_0, take_ge in Hv by (rewrite Ec; lia). rewrite Ec in Hv.
    specialize (IH _ pe Hu2). rewrite Hv in IH.
    change (run_prog _ (view s) pe) with
      (match deref (w_heap (view s)) (Some p) with Panic => Panic | Ok v => run_prog (PStore (Some p) (with_arr v (Some (arr_of v ++ x0 :: l0))) (abs k)) (view s) pe end).
    rewrite Ea. rewrite (store_run s p a) by done. exact IH.
  - cbn [run_s abs].
    change (run_prog _ (view s) pe) with
      (match deref (w_heap (view s)) p with Panic => Panic | Ok a => match deref (w_heap (view s)) q with Panic => Panic | Ok b =>
        run_prog (match v_arr b with
        | None => if decide (i = 0 ∧ j = 0 ∧ m = 0) then PStore p (with_arr a None) (abs k) else PPanic
        | Some l => PStore p (with_arr a (Some (take (j - i) (drop i l)))) (abs k) end) (view s) pe end end).
    destruct p as [p|]; [|apply sim_panic].
    destruct (hdr_of s (Some p)) as [t0|] eqn:Ep.
    2:{ rewrite (deref_view_none s (Some p) Hu) by auto. apply sim_panic. }
    destruct (hdr_deref s p t0 Hu Ep) as (va & Eva & Eda). rewrite Eda.
    destruct (hdr_of s q) as [t|] eqn:Eq.
    2:{ rewrite (deref_view_none s q Hu) by auto. apply sim_panic. }
    destruct q as [q|]; [|done].
    destruct (hdr_deref s q t Hu Eq) as (vb & Evb & Edb). rewrite Edb.
    destruct t as [t|]; cbn [contents with_arr v_arr].
    + cbn [andb]. destruct (bool_decide (i ≤ j ∧ j = m ∧ j ≤ sl_len t)) eqn:Hb; cbn [negb].
      2:{ split; [by intros ?|done]. }
      apply bool_decide_eq_true in Hb as (H1 & <- & H2).
      assert (slice_ok (sw_arena s) t) as Ht by (by eapply (us_ok s Hu)).
      rewrite decide_True by (destruct Ht as [? _]; lia).
      assert (p < length (sw_hdr s)) as Lp by (by eapply lookup_lt_Some).
      pose proof (slice_unshared s p q t i j Hu Eq H1 H2 Lp) as Hu2.
      specialize (IH _ pe Hu2). rewrite (set_hdr_view s p _ va Hu Eva) in IH.
      rewrite (store_run s p (with_arr va (contents (sw_arena s) t0))) by done.
      replace (take (j - i) (drop i (contents_of (sw_arena s) t)))
        with (contents_of (sw_arena s) (mkSlice (sl_back t) (sl_off t + i) (j - i) (j - i))); [exact IH|].
      unfold contents_of. simpl. rewrite <-drop_drop, skipn_firstn_comm, take_take. f_equal. lia.
    + destruct (decide (i = 0 ∧ j = 0 ∧ m = 0)); [|apply sim_panic].
      specialize (IH _ pe (nil_unshared s p Hu)). rewrite (set_hdr_view s p _ va Hu Eva) in IH.
      rewrite (store_run s p (with_arr va (contents (sw_arena s) t0))) by done. exact IH.
  - cbn [run_s abs run_prog]. rewrite view_heap.
    destruct (alloc_map_fitted (sw_hdr s) (sw_arena s) (w_heap (sw_world s)) Hl) as [-> X].
    destruct (alloc_map (w_heap (sw_world s))) as [h r]. cbn [fst snd] in *.
    destruct (with_world_sim s (set_heap (sw_world s) h) Hu X) as [Hu' Hv].
    specialize (IH r _ pe Hu'). rewrite Hv in IH. exact IH.
  - cbn [run_s abs run_prog]. rewrite view_heap, map_of_fitted. by apply IH.
  - cbn [run_s abs run_prog]. rewrite view_heap, map_write_fitted by done.
    destruct (map_write (w_heap (sw_world s)) r key v) as [h|] eqn:E; [|apply sim_panic].
    apply map_write_vals in E. destruct (with_world_sim s (set_heap (sw_world s) h) Hu E) as [Hu' Hv].
    specialize (IH _ pe Hu'). rewrite Hv in IH. exact IH.
  - cbn [run_s abs run_prog]. rewrite view_heap.
    destruct (map_delete_fitted (sw_hdr s) (sw_arena s) (w_heap (sw_world s)) r key Hl) as [-> X].
    destruct (with_world_sim s (set_heap (sw_world s) (map_delete (w_heap (sw_world s)) r key)) Hu X) as [Hu' Hv].
    specialize (IH _ pe Hu'). rewrite Hv in IH. exact IH.
  - cbn [run_s abs run_prog]. replace (w_env (view s)) with (w_env (sw_world s)) by done.
    destruct (w_env (sw_world s)) as [|x env] eqn:Ee; [by apply IH|].
    destruct (with_world_sim s (mkWorld (w_heap (sw_world s)) (w_events (sw_world s)) env (w_log (sw_world s))) Hu (extends_refl _)) as [Hu' Hv].
    specialize (IH x _ pe Hu'). rewrite Hv in IH.
    rewrite grow_refl in IH by done. exact IH.
  - apply sim_panic.
Qed.

(** ** Pipelines *)
Lemma spproc_ind' (P : spproc → Prop) :
  (∀ id cond ignf ignm onf c, Forall P onf → P (SProc id cond ignf ignm onf c)) → ∀ p, P p.
Proof.
  intros H. fix IH 1. intros [id cond ignf ignm onf c]. apply H.
  induction onf; [apply List.Forall_nil|apply List.Forall_cons; [apply IH|done]].
Qed.

Lemma view_sinc s id m : view (sinc s id m) = inc (view s) id m.
Proof. done. Qed.
Lemma unshared_sinc s id m : unshared s → unshared (sinc s id m).
Proof. intros [H1 H2 H3 H4]. by split. Qed.
Lemma sim_ok {A} s pe (a : A) : unshared s → simulates (SOk s pe a) (Ok (view s, pe, a)).
Proof. intros H. split; [by intros x [= <-]|]. by intros ? ? ? [= <- <- <-]. Qed.
Lemma sim_shared {A} (o : Outcome (world * pevent * A)) : simulates Shared o.
Proof. by split. Qed.
Lemma sim_inv {A} (r : sres A) o : simulates r o →
  (∃ s pe a, r = SOk s pe a ∧ o = Ok (view s, pe, a) ∧ unshared s) ∨ (r = SPan ∧ o = Panic) ∨ r = Shared.
Proof.
  intros [H1 H2]. destruct r as [s pe a| |]; [left|right; left|by right; right].
  - exists s, pe, a. split; [done|]. split; [by apply H1|by eapply H2].
  - split; [done|by apply H1].
Qed.

Lemma srun_list_sim l : Forall (λ p, ∀ s pe, unshared s → simulates (sp_process true p s pe) (pp_process (abs_proc p) (view s) pe)) l →
  ∀ s pe err, unshared s →
  simulates (srun_list (sp_process true) l s pe err) (run_list pp_process (map abs_proc l) (view s) pe err).
Proof.
  induction 1 as [|p l Hp _ IH]; intros s pe err Hu; [by apply sim_ok|].
  cbn [srun_list run_list map].
  destruct (sim_inv _ _ (Hp s pe Hu)) as [(s' & pe' & [e|] & -> & -> & Hu')|[[-> ->]| ->]].
  - by apply sim_ok.
  - by apply IH.
  - apply sim_panic.
  - apply sim_shared.
Qed.

Lemma sp_process_sim p : ∀ s pe, unshared s → simulates (sp_process true p s pe) (pp_process (abs_proc p) (view s) pe).
Proof.
  induction p as [id cond ignf ignm onf c IH] using spproc_ind'. intros s pe Hu.
  cbn [sp_process abs_proc pp_process]. rewrite <-view_sinc.
  destruct (sim_inv _ _ (simulation c (sinc s id MIn) pe (unshared_sinc s id MIn Hu)))
    as [(s' & pe' & [e|] & -> & -> & Hu')|[[-> ->]| ->]]; [| |apply sim_panic|apply sim_shared].
  2:{ rewrite <-view_sinc. apply sim_ok. by apply unshared_sinc. }
  destruct (pe_dropped pe'); [rewrite <-view_sinc; apply sim_ok; by apply unshared_sinc|].
  destruct (ignm && is_missing e); [rewrite <-view_sinc; apply sim_ok; by apply unshared_sinc|].
  destruct (sim_inv _ _ (srun_list_sim onf IH s' pe' (Some e) Hu'))
    as [(s2 & pe2 & err2 & -> & -> & Hu2)|[[-> ->]| ->]]; [|apply sim_panic|apply sim_shared].
  destruct (ignf && _); rewrite <-view_sinc; apply sim_ok; by apply unshared_sinc.
Qed.

Lemma Process_sim pl s evt : unshared s →
  match Process_s true pl s evt with
  | SOk s' _ (out, err) => Process (abs_pipe pl) (view s) evt = Ok (view s', out, err) ∧ unshared s'
  | SPan => Process (abs_pipe pl) (view s) evt = Panic
  | Shared => True
  end.
Proof.
  intros Hu. unfold Process_s, Process, pl_process, abs_pipe. cbn [pl_processors pl_onf].
  assert (∀ l, Forall (λ p, ∀ s pe, unshared s → simulates (sp_process true p s pe) (pp_process (abs_proc p) (view s) pe)) l) as Hall.
  { intros l. apply Forall_true. intros p. apply sp_process_sim. }
  destruct (sim_inv _ _ (srun_list_sim (sp_processors pl) (Hall _) s (mkPEvent evt false false) None Hu))
    as [(s1 & pe1 & [e|] & -> & -> & Hu1)|[[-> ->]| ->]]; [| |done|done].
  - destruct (sim_inv _ _ (srun_list_sim (sp_onf pl) (Hall _) s1 pe1 (Some e) Hu1))
      as [(s2 & pe2 & [e2|] & -> & -> & Hu2)|[[-> ->]| ->]]; [done| |done|done].
    destruct (pe_dropped pe2); done.
  - destruct (pe_dropped pe1); done.
Qed.

(** ** The built-in programs *)
Lemma append_s_run c w pe : run_prog (abs (append_s c)) w pe = run_prog (append_process c) w pe.
Proof.
  cbn. destruct (evt_of w pe) as [[i e]|]; [|done]. destruct (Get (w_heap w) e (ap_field c)) as [[h [p|]]|]; [| |done].
  - cbn. destruct (hvals h !! p) as [v|]; [|done]. destruct (N.eqb (v_type v) StringType); [done|].
    destruct (N.eqb (v_type v) ArrayType); done.
  - done.
Qed.
Lemma case_s_run msg f c w pe : run_prog (abs (case_s msg f c)) w pe = run_prog (case_process msg f c) w pe.
Proof.
  cbn. destruct (evt_of w pe) as [[i e]|]; [|done]. destruct (Get (w_heap w) e (cs_field c)) as [[h [p|]]|]; [|done|done].
  cbn. destruct (hvals h !! p) as [v|]; [|done]. by destruct (N.eqb (v_type v) StringType).
Qed.
Lemma set_s_run c w pe : run_prog (abs (set_s c)) w pe = run_prog (set_process c) w pe.
Proof.
  cbn. destruct (hvals (w_heap w) !! se_value c) as [v|]; [|done].
  destruct (N.eqb (v_type v) NullType); [|done]. cbn [negb]. destruct (String.eqb (se_copy_from c) ""); [done|].
  cbn. destruct (evt_of w pe) as [[i e]|]; [|done]. by destruct (Get (w_heap w) e (se_copy_from c)) as [[h [p|]]|].
Qed.
Lemma cfg_s_run lo up v w pe : run_prog (abs (cfg_sprog lo up v)) w pe = run_prog (cfg_prog lo up v) w pe.
Proof.
  destruct v; cbn [cfg_sprog cfg_prog]; [apply case_s_run|apply case_s_run|apply append_s_run|apply set_s_run|done|done].
Qed.
Lemma eventutil_finish_run key it t w pe :
  run_prog (abs (SLoad (Some it) (λ x,
          if N.eqb (v_type x) ArrayType
          then SAppendAll (Some t) (Some it) (SPut key (Some t) (λ _ err, SRet err))
          else SAppend (Some t) (Some it) (SPut key (Some t) (λ _ err, SRet err))))) w pe =
  run_prog (PLoad (Some it) (λ x,
          PLoad (Some t) (λ a,
            let added := if N.eqb (v_type x) ArrayType then arr_of x else [Some it] in
            let arr := match added with [] => v_arr a | _ => Some (arr_of a ++ added) end in
            PStore (Some t) (with_arr a arr) (PPut key (Some t) (λ _ err, Ret err))))) w pe
  ∨ (hvals (w_heap w) !! t = None).
Proof.
  destruct (hvals (w_heap w) !! t) as [a|] eqn:Et; [left|by right].
  cbn. destruct (hvals (w_heap w) !! it) as [x|] eqn:Ei; [|done]. cbn. rewrite Et.
  destruct (N.eqb (v_type x) ArrayType); cbn; [|by rewrite Et].
  rewrite Ei. destruct (arr_of x); cbn; [|by rewrite Et].
  rewrite decide_True by (by eapply lookup_lt_Some).
  assert (set_val (w_heap w) t (with_arr a (v_arr a)) = w_heap w) as Hid.
  { destruct (w_heap w) as [vs ms]. unfold set_val. simpl in *. f_equal.
    rewrite list_insert_id; [done|]. rewrite Et. by destruct a. }
  change (evt_of (set_heap w (set_val (w_heap w) t (with_arr a (v_arr a)))) pe) with (evt_of w pe).
  rewrite Hid. done.
Qed.
Lemma eventutil_append_s_run key item w pe :
  run_prog (abs (eventutil_append_s key item)) w pe = run_prog (eventutil_append key item) w pe.
Proof.
  destruct item as [it|]; [|done]. cbn [eventutil_append_s abs run_prog eventutil_append].
  destruct (evt_of w pe) as [[i e]|]; [|done].
  destruct (Get (w_heap w) e key) as [[h [p|]]|]; [| |done].
  - cbn [abs]. change (run_prog (PLoad ?p ?k) ?w ?pe) with (match deref (w_heap w) p with Panic => Panic | Ok v => run_prog (k v) w pe end).
    change (deref (w_heap (set_heap w h)) (Some p)) with (deref h (Some p)). cbn [deref].
    destruct (hvals h !! p) as [v|] eqn:Ep; [|done].
    destruct (N.eqb (v_type v) ArrayType); cbn [negb].
    + destruct (eventutil_finish_run key it p (set_heap w h) pe) as [E|E]; [exact E|]. simpl in E. by rewrite Ep in E.
    + destruct (eventutil_finish_run key it (length (hvals h))
        (set_heap w (mkHeap (hvals h ++ [mkArray [Some p]]) (hmaps h))) pe) as [E|E]; [exact E|].
      simpl in E. by rewrite list_lookup_middle in E.
  - destruct (eventutil_finish_run key it (length (hvals h))
        (set_heap w (mkHeap (hvals h ++ [mkArray []]) (hmaps h))) pe) as [E|E]; [exact E|].
      simpl in E. by rewrite list_lookup_middle in E.
Qed.

Lemma cfg_s_no_slicing lo up v : no_slicing (cfg_sprog lo up v).
Proof.
  destruct v; cbn; try done.
  1,2: intros [p|]; [|done]; intros x; by destruct (negb _).
  - intros [p|]; [|done]. intros x. destruct (N.eqb _ _); [done|]. by destruct (negb _).
  - intros x. destruct (negb _); [done|]. destruct (negb _); [|done]. by intros [?|].
Qed.
Lemma eventutil_append_s_no_slicing key item : no_slicing (eventutil_append_s key item).
Proof.
  destruct item as [it|]; [|done]. cbn. intros [p|]; cbn.
  - intros x. destruct (negb _); cbn; intros; by destruct (N.eqb _ _).
  - intros; by destruct (N.eqb _ _).
Qed.

Lemma no_slicing_run {A} (c : sprog A) : no_slicing c → ∀ s pe,
  run_s true c s pe ≠ Shared ∧ run_s false c s pe = run_s true c s pe.
Proof.
  induction c as [a|key v k IH|key v k IH|key k IH|key k IH|k IH|k IH|v k IH|l k IH|p k IH|p v k IH
                 |p x k IH|p q k IH|p q i j m k IH|k IH|r k IH|r key v k IH|r key k IH|k IH|];
    cbn [no_slicing run_s]; intros Hn s pe; try done;
    repeat match goal with
    | |- context [match evt_of ?w ?pe with _ => _ end] => destruct (evt_of w pe) as [[??]|]; [|done]
    | |- context [match Put ?h ?e ?k ?v with _ => _ end] => destruct (Put h e k v) as [?|]; [|done]
    | |- context [match TryPut ?h ?e ?k ?v with _ => _ end] => destruct (TryPut h e k v) as [?|]; [|done]
    | |- context [match Get ?h ?e ?k with _ => _ end] => destruct (Get h e k) as [[??]|]; [|done]
    | |- context [match EvDelete ?h ?e ?k with _ => _ end] => destruct (EvDelete h e k) as [[??]|]; [|done]
    | |- context [match map_write ?h ?r ?k ?v with _ => _ end] => destruct (map_write h r k v) as [?|]; [|done]
    end; try (by apply IH).
  - cbn [alloc_val]. destruct l; [by apply IH|]. cbn [fresh_slice]. by apply IH.
  - destruct (deref _ p); [|done]. destruct (hdr_of s p); [|done]. by apply IH.
  - destruct p; [|done]. destruct (decide _); [|done]. by apply IH.
  - destruct p; [|done]. destruct (hdr_of s _); [|done]. by apply IH.
  - destruct (hdr_of s q) as [[r|]|]; [|by apply IH|done].
    destruct (sl_len r); [by apply IH|]. destruct p; [|done]. destruct (hdr_of s _); [|done]. by apply IH.
  - destruct (w_env _); by apply IH.
Qed.

(** Without slicing, every run is as without slices. *)
Definition agrees {A} (r : sres A) (o : Outcome (world * pevent * A)) : Prop :=
  match r with
  | SOk s pe a => o = Ok (view s, pe, a) ∧ unshared s
  | SPan => o = Panic
  | Shared => False
  end.
Lemma no_slicing_agrees {A} (c : sprog A) s pe : no_slicing c → unshared s →
  agrees (run_s false c s pe) (run_prog (abs c) (view s) pe).
Proof.
  intros Hn Hu. destruct (no_slicing_run c Hn s pe) as [Hne ->].
  destruct (sim_inv _ _ (simulation c s pe Hu)) as [(s' & pe' & a & E & -> & Hu')|[[E ->]|E]]; [| |done];
    rewrite E; done.
Qed.

Lemma same_list lo up l l' : Forall2 (same_proc lo up) l l' →
  Forall (λ p, ∀ p' s pe, same_proc lo up p p' → unshared s → agrees (sp_process false p s pe) (pp_process p' (view s) pe)) l →
  ∀ s pe err, unshared s →
  agrees (srun_list (sp_process false) l s pe err) (run_list pp_process l' (view s) pe err).
Proof.
  induction 1 as [|p p' l l' Hp _ IH]; intros HF s pe err Hu; [done|].
  apply Forall_cons in HF as [H1 H2]. cbn [srun_list run_list].
  specialize (H1 p' s pe Hp Hu). destruct (sp_process false p s pe) as [s' pe' [e|]| |].
  - destruct H1 as [-> Hu']. done.
  - destruct H1 as [-> Hu']. by apply IH.
  - rewrite H1. done.
  - done.
Qed.
Lemma same_proc_agrees lo up p : ∀ p' s pe, same_proc lo up p p' → unshared s →
  agrees (sp_process false p s pe) (pp_process p' (view s) pe).
Proof.
  induction p as [id cond ignf ignm sonf c IH] using spproc_ind'. intros p' s pe Hsame Hu.
  inversion Hsame as [? ? ? ? ? onf v Hf]; subst. cbn [sp_process pp_process]. rewrite <-view_sinc.
  pose proof (no_slicing_agrees (cfg_sprog lo up v) (sinc s id MIn) pe (cfg_s_no_slicing lo up v) (unshared_sinc s id MIn Hu)) as G.
  rewrite cfg_s_run in G.
  destruct (run_s false (cfg_sprog lo up v) (sinc s id MIn) pe) as [s' pe' [e|]| |]; cbn [agrees] in G.
  - destruct G as [-> Hu'].
    destruct (pe_dropped pe'); [split; [done|by apply unshared_sinc]|].
    destruct (ignm && is_missing e); [split; [done|by apply unshared_sinc]|].
    pose proof (same_list lo up sonf onf Hf IH s' pe' (Some e) Hu') as G2.
    destruct (srun_list (sp_process false) sonf s' pe' (Some e)) as [s2 pe2 err2| |]; cbn [agrees] in G2.
    + destruct G2 as [-> Hu2]. destruct (ignf && _); (split; [done|by apply unshared_sinc]).
    + by rewrite G2.
    + done.
  - destruct G as [-> Hu']. split; [done|by apply unshared_sinc].
  - by rewrite G.
  - done.
Qed.

Lemma Process_same lo up sp pl s evt : same_pipe lo up sp pl → unshared s →
  match Process_s false sp s evt with
  | SOk s' _ (out, err) => Process pl (view s) evt = Ok (view s', out, err) ∧ unshared s'
  | SPan => Process pl (view s) evt = Panic
  | Shared => False
  end.
Proof.
  intros (_ & H1 & H2) Hu. unfold Process_s, Process, pl_process.
  assert (∀ l, Forall (λ p, ∀ p' s pe, same_proc lo up p p' → unshared s → agrees (sp_process false p s pe) (pp_process p' (view s) pe)) l) as Hall.
  { intros l. apply Forall_true. intros p. apply same_proc_agrees. }
  pose proof (same_list lo up _ _ H1 (Hall _) s (mkPEvent evt false false) None Hu) as G.
  destruct (srun_list (sp_process false) (sp_processors sp) s (mkPEvent evt false false) None) as [s1 pe1 [e|]| |]; cbn [agrees] in G.
  - destruct G as [-> Hu1]. pose proof (same_list lo up _ _ H2 (Hall _) s1 pe1 (Some e) Hu1) as G2.
    destruct (srun_list (sp_process false) (sp_onf sp) s1 pe1 (Some e)) as [s2 pe2 [e2|]| |]; cbn [agrees] in G2.
    + by destruct G2 as [-> ?].
    + destruct G2 as [-> ?]. by destruct (pe_dropped pe2).
    + by rewrite G2.
    + done.
  - destruct G as [-> ?]. by destruct (pe_dropped pe1).
  - by rewrite G.
  - done.
Qed.

(** ** Initial states *)
Lemma boxed_lookup w n sp p t : sw_hdr (boxed w n sp) !! p = Some (Some t) →
  ∃ v l, hvals (w_heap w) !! p = Some v ∧ v_arr v = Some l ∧ t = mkSlice p 0 (length l) (length l + n p) ∧
         sw_arena (boxed w n sp) !! p = Some (l ++ replicate (n p) None).
Proof.
  cbn [boxed sw_hdr sw_arena]. intros E. apply list_lookup_imap_Some in E as (v & Ev & Et).
  destruct (v_arr v) as [l|] eqn:El; [|done]. injection Et as ->. exists v, l. split_and!; try done.
  rewrite list_lookup_imap, Ev. simpl. unfold arr_of. by rewrite El.
Qed.
Lemma boxed_ok w n sp : view (boxed w n sp) = w ∧ unshared (boxed w n sp).
Proof.
  split.
  - destruct w as [[vs ms] es env lg]. unfold view, boxed, set_heap.
    cbn [sw_world sw_hdr sw_arena w_heap w_events w_env w_log hvals hmaps]. f_equal. f_equal.
    apply list_eq. intros p. rewrite fill_lookup by (by rewrite imap_length, map_length).
    rewrite list_lookup_fmap, list_lookup_imap.
    destruct (vs !! p) as [v|] eqn:Ev; [|done]. cbn.
    f_equal. unfold with_arr at 1. destruct v as [i u f t s a o b ty]. cbn. destruct a as [l|]; [|done]. cbn.
    unfold contents_of. cbn. rewrite list_lookup_imap, Ev. cbn. by rewrite drop_0, take_app.
  - split.
    + cbn. by rewrite imap_length, map_length.
    + cbn. apply Forall_map. by apply Forall_true.
    + intros p t E. destruct (boxed_lookup _ _ _ _ _ E) as (v & l & Ev & El & -> & Ea).
      split; cbn [sl_len sl_cap sl_back sl_off]; [lia|]. eexists. split; [exact Ea|]. rewrite app_length, replicate_length. lia.
    + intros p q t u b i Hne E1 E2 [<- _] [Hb _].
      destruct (boxed_lookup _ _ _ _ _ E1) as (? & ? & _ & _ & -> & _), (boxed_lookup _ _ _ _ _ E2) as (? & ? & _ & _ & -> & _).
      cbn in Hb. congruence.
Qed.
