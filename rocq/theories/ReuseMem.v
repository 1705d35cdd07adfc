(** * Decoding into a Value that already holds something, without memory.

    [keeps_all]: decoding on the heap (Reuse.v) does to what a value holds (ReuseSpec.v)
    what [decode] does; [over_iff]: [decode] is [over]. *)
From Verif Require Export ReuseSpec.
From Coq Require Import Lia.

(** ** The decoder as a function *)
Section dec.
  Context (f : json → mem → mem * bool).
  Definition dec_elem (j : json) (x : mem) : mem * bool :=
    match j with JNull => (MNil, true) | _ => f j (match x with MNil => zero_mem | Mem _ _ _ => x end) end.
  (** The slots decoded into, those behind, and whether all went well. *)
  Fixpoint dec_elems (l : list json) (slots : list mem) : list mem * list mem * bool :=
    match l with
    | [] => ([], slots, true)
    | j :: l' =>
        let '(x, ok) := dec_elem j (hd MNil slots) in
        if ok then let '(xs, rest, ok') := dec_elems l' (tl slots) in (x :: xs, rest, ok')
        else ([x], tl slots, false)
    end.
  Fixpoint dec_entries (m : list (string * json)) (e : list (string * mem)) : list (string * mem) * bool :=
    match m with
    | [] => (e, true)
    | (k, j) :: m' => let '(x, ok) := dec_elem j MNil in if ok then dec_entries m' (mset k x e) else (e, false)
    end.
End dec.
(** value.go:112-157 without memory; the flag is whether no error is returned. *)
Fixpoint decode (j : json) (m : mem) {struct j} : mem * bool :=
  match m with
  | MNil => (MNil, false)
  | Mem f a o =>
      match j with
      | JNull => (Mem (to_type f NullType) a o, true)
      | JBool b => (Mem (mkFields (f_int f) (f_uint f) (f_float f) (f_ts f) (f_str f) b BoolType) a o, true)
      | JNum neg n e =>
          match f64_of_dec neg n e with
          | Some b => (Mem (mkFields (f_int f) (f_uint f) b (f_ts f) (f_str f) (f_bool f) FloatType) a o, true)
          | None => (m, false)
          end
      | JStr x => (Mem (mkFields (f_int f) (f_uint f) (f_float f) (f_ts f) x (f_bool f) StringType) a o, true)
      | JArr l =>
          let '(xs, rest, ok) := dec_elems decode l (slots_of a) in
          if ok then (Mem (to_type f ArrayType) (Some (xs, match l with [] => [] | _ => rest end)) o, true)
          else
            let n := Nat.max (visible a) (length xs) in
            (Mem f (Some (take n (xs ++ rest), drop n (xs ++ rest))) o, false)
      | JObj es =>
          let '(e, ok) := dec_entries decode es (default [] o) in
          (Mem (if ok then to_type f ObjectType else f) a (Some e), ok)
      end
  end.

(** ** Proofs *)
Lemma holds_frame_all s s' P : left s s' P →
  (∀ op m cs, holds s op m cs → (∀ c, c ∈ cs → ¬ P c) → holds s' op m cs) ∧
  (∀ p a cs, harr s p a cs → in_store s p → v_arr (load s' p) = v_arr (load s p) → vs_spare s' p = vs_spare s p → (∀ c, c ∈ cs → ¬ P c) → harr s' p a cs) ∧
  (∀ p o cs, hobj s p o cs → in_store s p → v_obj (load s' p) = v_obj (load s p) → (∀ c, c ∈ cs → ¬ P c) → hobj s' p o cs) ∧
  (∀ ops ms cs, hslots s ops ms cs → (∀ c, c ∈ cs → ¬ P c) → hslots s' ops ms cs) ∧
  (∀ gm e cs, hassoc s gm e cs → (∀ c, c ∈ cs → ¬ P c) → hassoc s' gm e cs).
Proof.
  intros K. apply holds_mutind.
  - intros _. apply hd_nil.
  - intros p a o ca co Hin _ IHa _ IHo HP. assert (¬ P (LArr p)) as Hp by (apply HP; by left).
    assert (load s' p = load s p) as E by (by apply (load_left s s' P)). rewrite <-E. apply hd_val; [exact (in_store_left _ _ _ _ K Hin)| |].
    + apply IHa; [done|by rewrite E|by apply (proj2 K)|]. intros c Hc. apply HP. right. apply elem_of_app. by left.
    + apply IHo; [done|by rewrite E|]. intros c Hc. apply HP. right. apply elem_of_app. by right.
  - intros p Ha _ E _ _. apply ha_none. congruence.
  - intros p l vis hid c Ha Hl _ IH Hin E1 E2 HP. apply (ha_some _ p l); [congruence|done|]. rewrite E2. by apply IH.
  - intros p Ho _ E _. apply ho_none. congruence.
  - intros p r gm e c Ho Hg Hs _ IH Hin E HP. apply (ho_some _ p r gm); [congruence| |done|].
    + apply (proj1 K); [apply HP; by left|done].
    + apply IH. intros x Hx. apply HP. by right.
  - intros n _. apply hs_pad.
  - intros op ops m ms c cs _ IH1 _ IH2 HP. apply hs_cons; [apply IH1|apply IH2]; intros x Hx; apply HP, elem_of_app; auto.
  - intros _. apply has_nil.
  - intros k op gm m e c cs _ IH1 _ IH2 HP. apply has_cons; [apply IH1|apply IH2]; intros x Hx; apply HP, elem_of_app; auto.
Qed.
Lemma holds_frame s s' P op m cs : left s s' P → holds s op m cs → (∀ c, c ∈ cs → ¬ P c) → holds s' op m cs.
Proof. intros K. apply (holds_frame_all s s' P K). Qed.
Lemma hslots_frame s s' P ops ms cs : left s s' P → hslots s ops ms cs → (∀ c, c ∈ cs → ¬ P c) → hslots s' ops ms cs.
Proof. intros K. apply (holds_frame_all s s' P K). Qed.
Lemma hassoc_frame s s' P gm e cs : left s s' P → hassoc s gm e cs → (∀ c, c ∈ cs → ¬ P c) → hassoc s' gm e cs.
Proof. intros K. apply (holds_frame_all s s' P K). Qed.
Lemma harr_frame s s' P p a cs : left s s' P → harr s p a cs → in_store s p → v_arr (load s' p) = v_arr (load s p) → vs_spare s' p = vs_spare s p →
  (∀ c, c ∈ cs → ¬ P c) → harr s' p a cs.
Proof. intros K. apply (holds_frame_all s s' P K). Qed.
Lemma hobj_frame s s' P p o cs : left s s' P → hobj s p o cs → in_store s p → v_obj (load s' p) = v_obj (load s p) → (∀ c, c ∈ cs → ¬ P c) → hobj s' p o cs.
Proof. intros K. apply (holds_frame_all s s' P K). Qed.
Lemma holds_alloc_all s :
  (∀ op m cs, holds s op m cs → ∀ c, c ∈ cs → ¬ fresh (vs_heap s) c) ∧
  (∀ p a cs, harr s p a cs → ∀ c, c ∈ cs → ¬ fresh (vs_heap s) c) ∧
  (∀ p o cs, hobj s p o cs → ∀ c, c ∈ cs → ¬ fresh (vs_heap s) c) ∧
  (∀ ops ms cs, hslots s ops ms cs → ∀ c, c ∈ cs → ¬ fresh (vs_heap s) c) ∧
  (∀ gm e cs, hassoc s gm e cs → ∀ c, c ∈ cs → ¬ fresh (vs_heap s) c).
Proof.
  apply holds_mutind.
  - intros c Hc. by apply elem_of_nil in Hc.
  - intros p a o ca co Hin _ IHa _ IHo c Hc. apply elem_of_cons in Hc as [->|Hc].
    + unfold in_store in Hin. cbn [fresh]. lia.
    + apply elem_of_app in Hc as [Hc|Hc]; auto.
  - intros p _ c Hc. by apply elem_of_nil in Hc.
  - intros p l vis hid c _ _ _ IH. exact IH.
  - intros p _ c Hc. by apply elem_of_nil in Hc.
  - intros p r gm e c _ Hg _ _ IH x Hx. apply elem_of_cons in Hx as [->|Hx]; [by apply (lookup_not_fresh_map _ _ _ Hg)|auto].
  - intros n c Hc. by apply elem_of_nil in Hc.
  - intros op ops m ms c cs _ IH1 _ IH2 x Hx. apply elem_of_app in Hx as [Hx|Hx]; auto.
  - intros c Hc. by apply elem_of_nil in Hc.
  - intros k op gm m e c cs _ IH1 _ IH2 x Hx. apply elem_of_app in Hx as [Hx|Hx]; auto.
Qed.
Lemma holds_alloc s op m cs c : holds s op m cs → c ∈ cs → ¬ fresh (vs_heap s) c.
Proof. intros H. by apply (proj1 (holds_alloc_all s) _ _ _ H). Qed.
Lemma hslots_alloc s ops ms cs c : hslots s ops ms cs → c ∈ cs → ¬ fresh (vs_heap s) c.
Proof. intros H. by apply (proj1 (proj2 (proj2 (proj2 (holds_alloc_all s)))) _ _ _ H). Qed.
Lemma hassoc_alloc s gm e cs c : hassoc s gm e cs → c ∈ cs → ¬ fresh (vs_heap s) c.
Proof. intros H. by apply (proj2 (proj2 (proj2 (proj2 (holds_alloc_all s)))) _ _ _ H). Qed.

(** *** Slots *)
Lemma hslots_pad s ops ms cs n : hslots s ops ms cs → hslots s (ops ++ replicate n None) ms cs.
Proof.
  induction 1 as [k|op ops m ms c cs Ho _ IH]; [rewrite <-replicate_add; apply hs_pad|]. cbn [app]. by apply hs_cons.
Qed.
Lemma hslots_app s l1 m1 c1 l2 m2 c2 : length l1 = length m1 → hslots s l1 m1 c1 → hslots s l2 m2 c2 → hslots s (l1 ++ l2) (m1 ++ m2) (c1 ++ c2).
Proof.
  intros Hl H1 H2. induction H1 as [k|op ops m ms c cs Ho _ IH].
  - rewrite replicate_length in Hl. cbn in Hl. by subst k.
  - cbn [app]. rewrite <-(assoc_L (++)). apply hs_cons; [done|]. apply IH. cbn in Hl. lia.
Qed.
(** The first slot. *)
Lemma hslots_next s op ops ms cs : hslots s (op :: ops) ms cs → ∃ c cs', holds s op (hd MNil ms) c ∧ hslots s ops (tl ms) cs' ∧ cs = c ++ cs'.
Proof.
  intros H. inversion H as [n E1 E2|? ? m ms' c cs' Hm Hr E1 E2 E3]; subst.
  - destruct n as [|n]; [done|]. injection E1 as <- <-. exists [], []. split_and!; [apply hd_nil|apply hs_pad|done].
  - by exists c, cs'.
Qed.
Lemma hslots_length s ops ms cs : hslots s ops ms cs → length ms ≤ length ops.
Proof. induction 1; cbn; lia. Qed.

Definition keeps (j : json) : Prop := ∀ s p m cs, holds s (Some p) m cs → NoDup cs →
  ∃ s' cs', unmarshal j s p = (s', negb (decode j m).2) ∧ holds s' (Some p) (decode j m).1 cs' ∧ NoDup cs' ∧
    (∀ c, c ∈ cs' → c ∈ cs ∨ fresh (vs_heap s) c) ∧ left s s' (λ c, c ∈ cs).

Lemma room_holds s p i done rest ms cr : in_store s p → length done = i → i ≤ length (elems_of s p) → slots s p = done ++ rest →
  hslots s rest ms cr → (∀ c, c ∈ cr → c ≠ LArr p) → let s1 := make_room s p i in
  ∃ x rest1, length (elems_of s1 p) = Nat.max (length (elems_of s p)) (S i) ∧ slots s1 p = done ++ x :: rest1 ∧ hslots s1 (x :: rest1) ms cr ∧
    ∃ a, load s1 p = with_arr (load s p) a.
Proof.
  intros Hin Hd Hi Hs Ho Hp. cbv zeta. destruct (room_facts s p i Hin Hi) as (Hl & _ & _ & Ha). pose proof (left_room s p i) as K.
  set (s1 := make_room s p i) in *.
  assert (∃ n, slots s1 p = slots s p ++ replicate n None ∧ length (elems_of s1 p) = Nat.max (length (elems_of s p)) (S i)) as (n & En & El).
  { unfold s1, make_room. destruct (decide _); [exists 0; rewrite app_nil_r; split; [done|lia]|]. destruct (decide _) as [|Hd2].
    - exists 0. rewrite app_nil_r. unfold slots at 1. rewrite elems_slots, spare_slots by done. rewrite take_drop. split; [done|].
      rewrite take_length. lia.
    - assert (spare_of s p = []) as Es. { rewrite app_length in Hd2. destruct (spare_of s p); [done|]. cbn in Hd2. lia. }
      set (s' := set_slots s p _ _). exists (S i - length (elems_of s p) + hd 0 (vs_room s)).
      change (slots s' p = slots s p ++ replicate (S i - length (elems_of s p) + hd 0 (vs_room s)) None ∧ length (elems_of s' p) = Nat.max (length (elems_of s p)) (S i)).
      unfold slots. unfold s'. rewrite !elems_slots, spare_slots by done. rewrite Es, app_nil_r, replicate_add. rewrite (assoc_L (++)). split; [done|].
      rewrite app_length, replicate_length. lia. }
  rewrite Hs, <-(assoc_L (++)) in En.
  assert (hslots s1 (rest ++ replicate n None) ms cr) as Ho1.
  { apply hslots_pad. apply (hslots_frame s s1 _ _ _ _ K Ho). intros c Hc ->. by apply (Hp _ Hc). }
  destruct (rest ++ replicate n None) as [|x rest1].
  { exfalso. rewrite app_nil_r in En. unfold slots in En. apply (f_equal length) in En. rewrite app_length in En. lia. }
  by exists x, rest1.
Qed.
Lemma zero_holds s n : in_store s n → load s n = zeroValue → holds s (Some n) zero_mem [LArr n].
Proof.
  intros Hin E. unfold zero_mem. rewrite <-E. apply (hd_val s n None None [] []); [done|apply ha_none; by rewrite E|apply ho_none; by rewrite E].
Qed.
Lemma elem_keeps p j i s done rest ms cr : keeps j → in_store s p → length done = i → i ≤ length (elems_of s p) → slots s p = done ++ rest →
  hslots s rest ms cr → NoDup (LArr p :: cr) → let r := dec_elem decode j (hd MNil ms) in
  ∃ s1 op co rest1 cr1, elem_step unmarshal p i j s = (s1, negb r.2) ∧ length (elems_of s1 p) = Nat.max (length (elems_of s p)) (S i) ∧ slots s1 p = done ++ op :: rest1 ∧
    holds s1 op r.1 co ∧ hslots s1 rest1 (tl ms) cr1 ∧ NoDup (LArr p :: co ++ cr1) ∧ (∀ c, c ∈ co → c ∈ cr ∧ c ∉ cr1 ∨ fresh (vs_heap s) c) ∧
    (∀ c, c ∈ cr1 → c ∈ cr) ∧
    left s s1 (λ c, c = LArr p ∨ c ∈ cr ∧ c ∉ cr1) ∧ (∃ a, load s1 p = with_arr (load s p) a).
Proof.
  intros Hj Hin Hd Hi Hs Ho Hnd. cbv zeta. apply NoDup_cons in Hnd as [Hpc Hnd].
  destruct (room_holds s p i done rest ms cr Hin Hd Hi Hs Ho ltac:(intros c Hc ->; done)) as (x & rest1 & Hl & Hs1 & Ho1 & a & La).
  pose proof (left_room s p i) as K1. set (s1 := make_room s p i) in *.
  assert (in_store s1 p) as Hin1 by exact (in_store_left _ _ _ _ K1 Hin).
  assert (i < length (elems_of s1 p)) as Hl' by lia.
  destruct (hslots_next _ _ _ _ _ Ho1) as (c0 & cr1 & Hx & Hr & Ec).
  assert (∀ c, c ∈ cr1 → c ∉ c0) as Hdis. { rewrite Ec in Hnd. apply NoDup_app in Hnd as (_ & H & _). intros c Hc Hc0. by apply (H c). }
  assert (NoDup c0 ∧ NoDup cr1) as [N0 N1]. { rewrite Ec in Hnd. apply NoDup_app in Hnd as (? & _ & ?). done. }
  assert (∀ c, c ∈ c0 → c ∈ cr ∧ c ∉ cr1) as H0. { intros c Hc. rewrite Ec. split; [apply elem_of_app; by left|]. intros H. by apply (Hdis c). }
  assert (∀ c, c ∈ cr1 → c ∈ cr) as H1. { intros c Hc. rewrite Ec. apply elem_of_app. by right. }
  clear Ec Ho1. set (y := hd MNil ms) in *. set (ms' := tl ms) in *. clearbody y ms'.
  assert (j = JNull ∨ j ≠ JNull) as [->|Hn] by (destruct j; (by left) || (by right)).
  { change (elem_step unmarshal p i JNull s) with (set_slot s1 p i None, false). cbn [dec_elem fst snd negb].
    destruct (slots_set_slot s1 p i None done x rest1 Hin1 Hd Hl' Hs1) as (S2 & L2 & a2 & La2). pose proof (left_set_slot s1 p i None) as K2.
    exists (set_slot s1 p i None), None, [], rest1, cr1. split_and!; try done.
    - by rewrite L2.
    - apply hd_nil.
    - apply (hslots_frame s1 _ _ _ _ _ K2 Hr). intros c Hc ->. by apply Hpc, H1.
    - cbn [app]. apply NoDup_cons. split; [|done]. intros H. by apply Hpc, H1.
    - intros c Hc. by apply elem_of_nil in Hc.
    - apply (left_weaken _ _ (only p)); [|by left]. apply (left_trans _ _ _ _ _ K1 K2). by left.
    - exists a2. by rewrite La2, La. }
  rewrite elem_step_value by done. fold s1.
  assert (dec_elem decode j y = decode j (match y with MNil => zero_mem | Mem _ _ _ => y end)) as -> by (by destruct j).
  assert (slot s1 p i = x) as ->.
  { unfold slot. assert (elems_of s1 p !! i = Some x) as ->; [|done]. rewrite <-(lookup_app_l _ (spare_of s1 p)) by done.
    fold (slots s1 p). rewrite Hs1. rewrite lookup_app_r by lia. by rewrite Hd, Nat.sub_diag. }
  destruct x as [q|].
  - assert (match y with MNil => zero_mem | Mem _ _ _ => y end = y) as -> by (by inversion Hx).
    destruct (Hj s1 q y c0 Hx N0) as (s2 & cs2 & Hu & Ho2 & Nd2 & Hc2 & K2).
    assert (LArr p ∉ c0) as Hpq. { intros H. by apply Hpc, H0. }
    destruct (slots_same s1 s2 _ p K2 Hin1 Hpq) as (E1 & E2 & E3).
    assert (left s s2 (λ c, c = LArr p ∨ c ∈ cr ∧ c ∉ cr1)) as K02.
    { apply (left_trans _ s1 _ _ (λ c, c ∈ c0)); [apply (left_weaken _ _ _ _ K1); by left|done|]. intros c Hc. left. right. by apply H0. }
    exists s2, (Some q), cs2, rest1, cr1. split_and!.
    + done.
    + by rewrite E2.
    + by rewrite E1.
    + done.
    + apply (hslots_frame s1 _ _ _ _ _ K2 Hr). intros c Hc H. by apply (Hdis c).
    + apply NoDup_cons. split.
      * rewrite elem_of_app. intros [H|H]; [|by apply Hpc, H1]. destruct (Hc2 _ H) as [H'|H']; [done|].
        unfold in_store in Hin1. cbn [fresh] in H'. lia.
      * apply NoDup_app. split_and!; [done| |done]. intros c Hc Hc1. destruct (Hc2 _ Hc) as [H'|H']; [by apply (Hdis c)|].
        by apply (hslots_alloc _ _ _ _ c Hr).
    + intros c Hc. destruct (Hc2 c Hc) as [H'|H']; [left; by apply H0|right]. exact (kept_fresh _ _ _ _ (proj1 K1) H').
    + exact H1.
    + done.
    + exists a. by rewrite E3.
  - inversion Hx. subst c0 y. pose proof (left_new s1) as K2. set (s2 := (new_value s1).1) in *. set (n := (new_value s1).2).
    assert (in_store s2 p) as Hin2 by exact (in_store_left _ _ _ _ K2 Hin1).
    destruct (slots_same s1 s2 _ p K2 Hin1 ltac:(by intros [])) as (E1 & E2 & E3).
    destruct (slots_set_slot s2 p i (Some n) done None rest1 Hin2 Hd ltac:(by rewrite E2) ltac:(by rewrite E1)) as (S3 & L3 & a3 & La3).
    pose proof (left_set_slot s2 p i (Some n)) as K3. set (s3 := set_slot s2 p i (Some n)) in *.
    assert (n ≠ p) as Hnp. { intros E. unfold in_store in Hin1. rewrite <-E in Hin1. unfold n in Hin1. cbn in Hin1. lia. }
    assert (in_store s3 n) as Hn3. { apply (in_store_left s2 s3 _ n K3). apply in_store_new. }
    assert (load s3 n = zeroValue) as Ln. { rewrite (load_left s2 s3 (only p) n K3); [apply load_new|apply in_store_new|]. intros [= E]. done. }
    assert (in_store s3 p) as Hin3 by exact (in_store_left _ _ _ _ K3 Hin2).
    assert (left s1 s3 (only p)) as K13. { apply (left_trans _ s2 _ (only p) (only p)); [by apply (left_weaken _ _ (λ _, False))|done|by left]. }
    assert (left s s3 (only p)) as K03. { apply (left_trans _ _ _ _ _ K1 K13). by left. }
    assert (fresh (vs_heap s1) (LArr n)) as Fn by (unfold n; cbn; lia).
    assert (fresh (vs_heap s) (LArr n)) as Fn0 by exact (kept_fresh _ _ _ _ (proj1 K1) Fn).
    destruct (Hj s3 n zero_mem [LArr n] (zero_holds s3 n Hn3 Ln) ltac:(apply NoDup_singleton)) as (s4 & cs4 & Hu & Ho4 & Nd4 & Hc4 & K4).
    destruct (slots_same s3 s4 _ p K4 Hin3 ltac:(intros H; apply elem_of_list_singleton in H; injection H as H; done)) as (F1 & F2 & F3).
    assert (∀ c, c ∈ cs4 → fresh (vs_heap s) c ∧ fresh (vs_heap s1) c) as Hfr.
    { intros c Hc. destruct (Hc4 c Hc) as [H'|H']; [apply elem_of_list_singleton in H' as ->; done|].
      split; [exact (kept_fresh _ _ _ _ (proj1 K03) H')|exact (kept_fresh _ _ _ _ (proj1 K13) H')]. }
    exists s4, (Some n), cs4, rest1, cr1. split_and!.
    + done.
    + by rewrite F2, L3, E2.
    + by rewrite F1.
    + done.
    + apply (hslots_frame s3 _ _ _ _ _ K4).
      * apply (hslots_frame s1 _ _ _ _ _ K13 Hr). intros c Hc ->. by apply Hpc, H1.
      * intros c Hc H. apply elem_of_list_singleton in H as ->. by apply (hslots_alloc _ _ _ _ _ Hr Hc).
    + apply NoDup_cons. split.
      * rewrite elem_of_app. intros [H|H]; [|by apply Hpc, H1]. destruct (Hfr _ H) as [_ H']. unfold in_store in Hin1. cbn [fresh] in H'. lia.
      * apply NoDup_app. split_and!; [done| |done]. intros c Hc Hc1. destruct (Hfr _ Hc) as [_ H']. by apply (hslots_alloc _ _ _ _ c Hr).
    + intros c Hc. right. by apply Hfr.
    + exact H1.
    + apply (left_trans _ s3 _ _ (λ c, c ∈ [LArr n])); [apply (left_weaken _ _ _ _ K03); by left|done|].
      intros c Hc. apply elem_of_list_singleton in Hc as ->. by right.
    + exists a3. by rewrite F3, La3, E3, La.
Qed.
Lemma arr_keeps p l : Forall keeps l → ∀ i s done rest ms cr, in_store s p → length done = i → i ≤ length (elems_of s p) → slots s p = done ++ rest →
  hslots s rest ms cr → NoDup (LArr p :: cr) → let r := dec_elems decode l ms in
  ∃ s' ops co rest' cr', arr_loop unmarshal p l i s = (s', negb r.2) ∧ length (elems_of s' p) = Nat.max (length (elems_of s p)) (i + length ops) ∧
    slots s' p = done ++ ops ++ rest' ∧ length ops = length r.1.1 ∧
    hslots s' ops r.1.1 co ∧ hslots s' rest' r.1.2 cr' ∧ NoDup (LArr p :: co ++ cr') ∧
    (∀ c, c ∈ co ++ cr' → c ∈ cr ∨ fresh (vs_heap s) c) ∧
    left s s' (λ c, c ∈ LArr p :: cr) ∧ (∃ a, load s' p = with_arr (load s p) a).
Proof.
  induction 1 as [|j l Hj Hl IH]; intros i s done rest ms cr Hin Hd Hi Hs Ho Hnd; cbv zeta.
  - exists s, [], [], rest, cr. cbn [arr_loop dec_elems length app fst snd negb]. split_and!; try done.
    + lia.
    + apply (hs_pad s 0).
    + by left.
    + exists (v_arr (load s p)). by destruct (load s p).
  - rewrite arr_loop_cons. cbn [dec_elems].
    destruct (elem_keeps p j i s done rest ms cr Hj Hin Hd Hi Hs Ho Hnd)
      as (s1 & op & co & rest1 & cr1 & -> & Hl1 & Hs1 & Ho1 & Hr1 & Nd1 & Hco & Hcr & K1 & (a & La)).
    destruct (dec_elem decode j (hd MNil ms)) as [x ok]. cbn [fst snd] in *.
    assert (in_store s1 p) as Hin1 by exact (in_store_left _ _ _ _ K1 Hin).
    assert (left s s1 (λ c, c ∈ LArr p :: cr)) as K1'. { apply (left_weaken _ _ _ _ K1). intros c [->|[Hc _]]; [by left|by right]. }
    destruct ok; cbn [negb].
    2: { exists s1, [op], (co ++ []), rest1, cr1. cbn [fst snd negb length app]. split_and!; try done.
      - by replace (i + 1) with (S i) by lia.
      - apply hs_cons; [done|apply (hs_pad s1 0)].
      - by rewrite app_nil_r.
      - intros c. rewrite app_nil_r, elem_of_app. intros [Hc|Hc]; [destruct (Hco c Hc) as [[? _]|?]; auto|left; auto].
      - eauto. }
    assert (NoDup (LArr p :: cr1)) as Nd1'.
    { apply NoDup_cons in Nd1 as [H1 H2]. apply NoDup_cons. split; [intros H; apply H1, elem_of_app; by right|]. by apply NoDup_app in H2 as (_ & _ & ?). }
    destruct (IH (S i) s1 (done ++ [op]) rest1 (tl ms) cr1 Hin1 ltac:(rewrite app_length; cbn; lia) ltac:(lia) ltac:(by rewrite <-(assoc_L (++))) Hr1 Nd1')
      as (s' & ops & co2 & rest' & cr' & -> & Hl2 & Hs2 & Hlo & Ho2 & Hr2 & Nd2 & Hc2 & K2 & (a2 & La2)).
    destruct (dec_elems decode l (tl ms)) as [[xs rm] ok]. cbn [fst snd] in *.
    assert (∀ x, x ∈ co → x ≠ LArr p) as Hcop. { intros z Hx ->. apply NoDup_cons in Nd1 as [H1 _]. apply H1, elem_of_app. by left. }
    assert (∀ x, x ∈ co → x ∉ LArr p :: cr1) as Hco1.
    { intros z Hx Hin'. apply elem_of_cons in Hin' as [?|Hin']; [by apply (Hcop z)|]. apply NoDup_cons in Nd1 as [_ H2]. apply NoDup_app in H2 as (_ & H2 & _).
      by apply (H2 z). }
    assert (∀ x, x ∈ co → x ∉ co2 ++ cr') as Hdis.
    { intros z Hx Hx2. destruct (Hc2 z Hx2) as [H'|H']; [apply (Hco1 z Hx); by right|]. by apply (holds_alloc _ _ _ _ z Ho1). }
    exists s', (op :: ops), (co ++ co2), rest', cr'. split_and!.
    + done.
    + cbn [length]. lia.
    + rewrite Hs2, <-(assoc_L (++)). done.
    + cbn. by rewrite Hlo.
    + apply hs_cons; [|done]. by apply (holds_frame s1 s' _ _ _ _ K2).
    + done.
    + rewrite <-(assoc_L (++)). apply NoDup_cons in Nd2 as [H1 H2]. apply NoDup_cons. split.
      * rewrite elem_of_app. intros [H|H]; [by apply (Hcop _ H)|done].
      * apply NoDup_app. split_and!; [|done|done]. apply NoDup_cons in Nd1 as [_ H3]. by apply NoDup_app in H3 as (? & _).
    + intros z. rewrite <-(assoc_L (++)), elem_of_app. intros [H|H].
      * destruct (Hco z H) as [[? _]|?]; auto.
      * destruct (Hc2 z H) as [?|H']; [left; auto|right; exact (kept_fresh _ _ _ _ (proj1 K1) H')].
    + apply (left_trans _ _ _ _ _ K1' K2). intros z Hx. left. apply elem_of_cons in Hx as [->|Hx]; [by left|right; auto].
    + exists a2. by rewrite La2, La.
Qed.

(** *** Entries *)
Lemma entry_keeps j s : keeps j → let r := dec_elem decode j MNil in
  ∃ s' op c, entry_step unmarshal j s = (s', op, negb r.2) ∧ holds s' op r.1 c ∧ NoDup c ∧ Forall (fresh (vs_heap s)) c ∧ left s s' (λ _, False).
Proof.
  intros Hj. cbv zeta. assert (j = JNull ∨ j ≠ JNull) as [->|Hn] by (destruct j; (by left) || (by right)).
  { exists s, None, []. split_and!; try done; [apply hd_nil|apply NoDup_nil_2]. }
  assert (entry_step unmarshal j s = (let '(s2, err) := unmarshal j (new_value s).1 (new_value s).2 in (s2, Some (new_value s).2, err))) as ->
    by (by destruct j).
  assert (dec_elem decode j MNil = decode j zero_mem) as -> by (by destruct j).
  pose proof (left_new s) as K1. set (s1 := (new_value s).1) in *. set (q := (new_value s).2).
  assert (fresh (vs_heap s) (LArr q)) as Fq by (unfold q; cbn; lia).
  destruct (Hj s1 q zero_mem [LArr q] (zero_holds s1 q (in_store_new s) (load_new s)) ltac:(apply NoDup_singleton)) as (s2 & cs & -> & Hh & Hn2 & Hc & K2).
  exists s2, (Some q), cs. split_and!; try done.
  - apply Forall_forall. intros c Hx. destruct (Hc c Hx) as [H|H]; [apply elem_of_list_singleton in H as ->; done|].
    exact (kept_fresh _ _ _ _ (proj1 K1) H).
  - apply (left_trans _ _ _ _ _ K1 K2). intros c H. apply elem_of_list_singleton in H as ->. by right.
Qed.
Lemma hassoc_set s k op x c : holds s op x c → ∀ gm e cs, hassoc s gm e cs →
  ∃ cs', hassoc s (mset k op gm) (mset k x e) cs' ∧ cs' ⊆+ c ++ cs.
Proof.
  intros Hc gm e cs H. induction H as [|k' op' gm x' e c' cs Hc' H (cs1 & IH & S1)].
  - exists (c ++ []). split; [apply has_cons; [done|apply has_nil]|done].
  - cbn [mset]. destruct (String.compare k k').
    + exists (c ++ cs). split; [by apply has_cons|]. apply submseteq_app; [done|]. by apply submseteq_inserts_l.
    + exists (c ++ c' ++ cs). split; [|done]. by do 2 (apply has_cons; [done|]).
    + exists (c' ++ cs1). split; [by apply has_cons|]. rewrite (assoc_L (++)), (comm (++) c c'), <-(assoc_L (++)).
      by apply submseteq_app.
Qed.
Lemma obj_keeps r m : Forall (λ kv : string * json, keeps kv.2) m → ∀ s gm e cs, hmaps (vs_heap s) !! r = Some gm → msorted gm →
  hassoc s gm e cs → NoDup (LMap r :: cs) → let d := dec_entries decode m e in
  ∃ s' gm' cs', obj_loop unmarshal r m s = (s', negb d.2) ∧ hmaps (vs_heap s') !! r = Some gm' ∧ msorted gm' ∧ hassoc s' gm' d.1 cs' ∧
    NoDup (LMap r :: cs') ∧ (∀ c, c ∈ cs' → c ∈ cs ∨ fresh (vs_heap s) c) ∧ left s s' (λ c, c = LMap r).
Proof.
  induction 1 as [|[k j] m Hj Hm IH]; intros s gm e cs Hg Hs Ha Hnd; cbv zeta.
  - exists s, gm, cs. split_and!; try done. by left.
  - rewrite obj_loop_cons. cbn [dec_entries]. cbn [snd] in Hj. destruct (entry_keeps j s Hj) as (s1 & op & c & -> & C1 & N1 & F1 & K1).
    destruct (dec_elem decode j MNil) as [x ok]. cbn [fst snd] in *. rewrite Forall_forall in F1.
    apply NoDup_cons in Hnd as [Hr Hnd].
    assert (hmaps (vs_heap s1) !! r = Some gm) as Hg1. { apply (proj1 K1); [by intros []|done]. }
    assert (hassoc s1 gm e cs) as Ha1 by (apply (hassoc_frame s s1 _ _ _ _ K1 Ha); by intros ? ? []).
    destruct ok; cbn [negb].
    2: { exists s1, gm, cs. cbn [fst snd negb]. split_and!; try done; [by apply NoDup_cons|by left|by apply (left_weaken _ _ (λ _, False))]. }
    pose proof (left_map_put s1 r k op) as K2. set (s2 := map_put s1 r k op) in *.
    assert (left s s2 (λ c, c = LMap r)) as K02.
    { apply (left_trans _ s1 _ _ (λ c, c = LMap r)); [by apply (left_weaken _ _ (λ _, False))|done|by left]. }
    assert (hmaps (vs_heap s2) !! r = Some (mset k op gm)) as Hg2.
    { unfold s2. cbn. rewrite Hg1. apply list_lookup_insert. by apply lookup_lt_Some in Hg1. }
    destruct (hassoc_set s1 k op x c C1 gm e cs Ha1) as (cs1 & Ha2 & Hsub).
    assert (∀ y, y ∈ cs1 → y ∈ c ∨ y ∈ cs) as Hcs1. { intros y Hy. apply elem_of_app. exact (elem_of_submseteq _ _ _ Hy Hsub). }
    assert (LMap r ∉ cs1) as Hr1. { intros H. destruct (Hcs1 _ H) as [H'|H']; [by apply (lookup_not_fresh_map _ _ _ Hg), F1|done]. }
    assert (NoDup cs1) as N2.
    { apply (NoDup_sub _ _ Hsub). apply NoDup_app. split_and!; [done| |done]. intros y Hy Hy'. by apply (hassoc_alloc s _ _ _ y Ha), F1. }
    assert (hassoc s2 (mset k op gm) (mset k x e) cs1) as Ha3. { apply (hassoc_frame s1 s2 _ _ _ _ K2 Ha2). intros y Hy ->. done. }
    destruct (IH s2 _ _ cs1 Hg2 ltac:(by apply msorted_mset) Ha3 ltac:(by apply NoDup_cons)) as (s' & gm' & cs' & -> & E2 & E3 & C2 & N3 & F2 & K3).
    exists s', gm', cs'. split_and!; try done.
    + intros y Hy. destruct (F2 y Hy) as [H|H]; [|right; exact (kept_fresh _ _ _ _ (proj1 K02) H)].
      destruct (Hcs1 y H) as [H'|H']; [right; by apply F1|by left].
    + apply (left_trans _ _ _ _ _ K02 K3). by left.
Qed.
Lemma dec_elems_length l : ∀ ms, length ms ≤ length (dec_elems decode l ms).1.1 + length (dec_elems decode l ms).1.2.
Proof.
  induction l as [|j l IH]; intros ms; [cbn; lia|]. cbn [dec_elems]. destruct (dec_elem decode j (hd MNil ms)) as [x ok].
  destruct ok.
  - specialize (IH (tl ms)). destruct (dec_elems decode l (tl ms)) as [[xs rest] ok]. cbn [fst snd length] in *. destruct ms; cbn in *; lia.
  - cbn [fst snd length]. destruct ms; cbn; lia.
Qed.
Lemma hslots_of s p a ca : harr s p a ca → hslots s (slots s p) (slots_of a) ca ∧ length (elems_of s p) = visible a.
Proof.
  intros H. unfold slots, elems_of, spare_of. inversion H as [p' E|p' l vis hid c E El Hh]; subst; rewrite E; cbn; [|done].
  split; [apply (hs_pad s 0)|done].
Qed.
Lemma dec_elems_ok l ms : (dec_elems decode l ms).2 = true → length (dec_elems decode l ms).1.1 = length l.
Proof.
  revert ms. induction l as [|j l IH]; intros ms; [done|]. cbn [dec_elems]. destruct (dec_elem decode j (hd MNil ms)) as [x ok]. destruct ok; [|done].
  specialize (IH (tl ms)). destruct (dec_elems decode l (tl ms)) as [[xs rest] ok]. cbn [fst snd length] in *. intros H. by rewrite IH.
Qed.
Lemma dec_elems_fail l ms : (dec_elems decode l ms).2 = false → 0 < length (dec_elems decode l ms).1.1.
Proof.
  destruct l as [|j l]; [done|]. cbn [dec_elems]. destruct (dec_elem decode j (hd MNil ms)) as [x ok]. destruct ok; [|cbn; lia].
  destruct (dec_elems decode l (tl ms)) as [[xs rest] ok]. cbn. lia.
Qed.
Lemma keeps_save s p a o f ca co v' : holds s (Some p) (Mem f a o) (LArr p :: ca ++ co) → NoDup (LArr p :: ca ++ co) → in_store s p → harr s p a ca → hobj s p o co →
  v_arr v' = v_arr (load s p) → v_obj v' = v_obj (load s p) →
  holds (save s p v') (Some p) (Mem (fields_of v') a o) (LArr p :: ca ++ co) ∧ left s (save s p v') (λ c, c ∈ LArr p :: ca ++ co).
Proof.
  intros _ Hnd Hin Ha Ho Ea Eo. apply NoDup_cons in Hnd as [Hp _]. pose proof (left_save s p v') as K.
  split; [|apply (left_weaken _ _ _ _ K); intros c ->; by left].
  assert (fields_of v' = fields_of (load (save s p v') p)) as -> by (by rewrite load_save). apply hd_val; [exact (in_store_left _ _ _ _ K Hin)| |].
  - apply (harr_frame s _ _ _ _ _ K Ha Hin); [by rewrite load_save|done|]. intros c Hc ->. apply Hp, elem_of_app. by left.
  - apply (hobj_frame s _ _ _ _ _ K Ho Hin); [by rewrite load_save|]. intros c Hc ->. apply Hp, elem_of_app. by right.
Qed.
Lemma keeps_all j : keeps j.
Proof.
  induction j as [|b|neg n e|x|l IH|es IH] using json_ind'; intros s p m cs H Hnd; inversion H as [|p' a o ca co Hin Ha Ho E1 E2 E3]; subst p' m cs.
  1-4: pose proof (λ v', keeps_save s p a o _ ca co v' H Hnd Hin Ha Ho) as KS.
  - cbn [unmarshal decode fst snd negb]. unfold set_type. eexists _, _. edestruct KS as [Hh K]; [| |split_and!; [reflexivity|exact Hh|done|by left|exact K]]; done.
  - cbn [unmarshal decode fst snd negb]. eexists _, _. edestruct KS as [Hh K]; [| |split_and!; [reflexivity|exact Hh|done|by left|exact K]]; done.
  - cbn [unmarshal decode]. destruct (f64_of_dec neg n e) as [b|]; cbn [fst snd negb].
    + eexists _, _. edestruct KS as [Hh K]; [| |split_and!; [reflexivity|exact Hh|done|by left|exact K]]; done.
    + exists s, (LArr p :: ca ++ co). split_and!; try done. by left.
  - cbn [unmarshal decode fst snd negb]. eexists _, _. edestruct KS as [Hh K]; [| |split_and!; [reflexivity|exact Hh|done|by left|exact K]]; done.
  - change (unmarshal (JArr l) s p) with (let '(s1, err) := arr_loop unmarshal p l 0 s in
      if err then (s1, true) else (set_type (cut s1 p (length l)) p ArrayType, false)).
    destruct (hslots_of s p a ca Ha) as [Hsl Hvis].
    assert (NoDup (LArr p :: ca)) as Nca.
    { apply NoDup_cons in Hnd as [H1 H2]. apply NoDup_cons. split; [intros Hx; apply H1, elem_of_app; by left|]. by apply NoDup_app in H2 as (? & _). }
    assert (∀ c, c ∈ co → c ∉ LArr p :: ca) as Hco.
    { intros c Hc Hx. apply NoDup_cons in Hnd as [H1 H2]. apply elem_of_cons in Hx as [->|Hx]; [by apply H1, elem_of_app; right|].
      apply NoDup_app in H2 as (_ & H2 & _). by apply (H2 c). }
    destruct (arr_keeps p l IH 0 s [] (slots s p) (slots_of a) ca Hin eq_refl ltac:(lia) eq_refl Hsl Nca)
      as (s1 & ops & c1 & rest & c2 & -> & Hl1 & Hs1 & Hlo & Ho1 & Hr1 & Nd1 & Hc1 & K1 & (b & Lb)).
    pose proof (dec_elems_length l (slots_of a)) as Hlen. pose proof (dec_elems_ok l (slots_of a)) as Hok.
    pose proof (dec_elems_fail l (slots_of a)) as Hfail.
    cbn [decode]. destruct (dec_elems decode l (slots_of a)) as [[xs rm] ok]. cbn [fst snd app] in *.
    pose proof (in_store_left _ _ _ _ K1 Hin) as Hin1.
    assert (hslots s1 (slots s1 p) (xs ++ rm) (c1 ++ c2)) as Hall. { rewrite Hs1. by apply hslots_app. }
    assert (hobj s1 p o co) as Ho2. { apply (hobj_frame s s1 _ _ _ _ K1 Ho Hin); [by rewrite Lb|exact Hco]. }
    assert (∀ cc, (∀ c, c ∈ cc → c ∈ c1 ++ c2) → NoDup cc → NoDup (LArr p :: cc ++ co)) as Hnew.
    { intros cc Hcc Ncc. apply NoDup_cons in Nd1 as [H1 H2]. apply NoDup_cons. split.
      - rewrite elem_of_app. intros [Hx|Hx]; [by apply H1, Hcc|]. apply (Hco _ Hx). by left.
      - apply NoDup_app. split_and!; [done| |].
        + intros c Hc Hx. destruct (Hc1 c (Hcc c Hc)) as [H'|H']; [apply (Hco c Hx); by right|]. 
          by apply (proj1 (proj2 (proj2 (holds_alloc_all s))) _ _ _ Ho c).
        + apply NoDup_cons in Hnd as [_ H3]. by apply NoDup_app in H3 as (_ & _ & ?). }
    assert (∀ cc, (∀ c, c ∈ cc → c ∈ c1 ++ c2) → ∀ c, c ∈ LArr p :: cc ++ co → c ∈ LArr p :: ca ++ co ∨ fresh (vs_heap s) c) as Hsub.
    { intros cc Hcc c Hc. apply elem_of_cons in Hc as [->|Hc]; [left; by left|]. apply elem_of_app in Hc as [Hc|Hc].
      - destruct (Hc1 c (Hcc c Hc)) as [?|?]; [left; right; apply elem_of_app; by left|by right].
      - left. right. apply elem_of_app. by right. }
    assert (left s s1 (λ c, c ∈ LArr p :: ca ++ co)) as K1'.
    { apply (left_weaken _ _ _ _ K1). intros c Hc. apply elem_of_cons in Hc as [->|Hc]; [by left|right; apply elem_of_app; by left]. }
    assert (∀ c, c ∈ c1 ++ c2 → c ≠ LArr p) as Hnp. { intros c Hc ->. by apply NoDup_cons in Nd1 as [? _]. }
    destruct ok; cbn [negb fst snd].
    2: { exists s1, (LArr p :: (c1 ++ c2) ++ co). split_and!; try done.
      2: { apply Hnew; [done|]. by apply NoDup_cons in Nd1 as [_ ?]. }
      2: { by apply Hsub. }
      assert (fields_of (load s p) = fields_of (load s1 p)) as -> by (by rewrite Lb).
      apply hd_val; [done| |done]. rewrite Hvis, Hlo in Hl1. set (n := Nat.max (visible a) (length xs)) in *.
      assert (n ≤ length (xs ++ rm)) as Hn.
      { rewrite app_length. unfold n. assert (visible a ≤ length (slots_of a)); [|lia]. destruct a as [[vis hid]|]; cbn; [rewrite app_length|]; lia. }
      unfold slots, elems_of, spare_of in Hall. unfold elems_of in Hl1. destruct (v_arr (load s1 p)) as [arr|] eqn:Ea; cbn in *.
      + apply (ha_some _ p arr); [done|rewrite take_length; lia|]. by rewrite take_drop.
      + exfalso. specialize (Hfail eq_refl). lia. }
    specialize (Hok eq_refl).
    set (s2 := cut s1 p (length l)). assert (left s1 s2 (only p)) as K2 by apply left_cut.
    pose proof (in_store_left _ _ _ _ K2 Hin1) as Hin2.
    pose proof (left_set_type s2 p ArrayType) as K3. set (s3 := set_type s2 p ArrayType) in *.
    pose proof (in_store_left _ _ _ _ K3 Hin2) as Hin3.
    assert (left s1 s3 (only p)) as K13. { apply (left_trans _ _ _ _ _ K2 K3). by left. }
    assert (load s3 p = mkValue (v_int (load s2 p)) (v_uint (load s2 p)) (v_float (load s2 p)) (v_ts (load s2 p)) (v_str (load s2 p)) (v_arr (load s2 p)) (v_obj (load s2 p)) (v_bool (load s2 p)) ArrayType) as L3
      by (unfold s3; by rewrite load_type).
    assert (∃ cc, (∀ c, c ∈ cc → c ∈ c1 ++ c2) ∧ NoDup cc ∧ hslots s1 (ops ++ vs_spare s2 p) (xs ++ match l with [] => [] | _ => rm end) cc ∧ v_arr (load s2 p) = Some ops ∧
              ∃ a', load s2 p = with_arr (load s p) a') as (cc & Hcc & Ncc & Hh & Ha2 & a' & La').
    { apply NoDup_cons in Nd1 as [_ Nd1]. unfold s2, cut. destruct l as [|j l].
      - destruct xs; [|done]. destruct ops; [|done]. exists []. cbn [length]. rewrite load_slots by done. cbn [vs_spare set_slots v_arr].
        split_and!; [intros c Hc; by apply elem_of_nil in Hc|apply NoDup_nil_2| |done|].
        + cbn. rewrite decide_True by done. apply (hs_pad s1 0).
        + eexists. rewrite Lb. reflexivity.
      - rewrite <-Hok. cbn [length] in Hok. destruct (length xs) as [|n] eqn:El; [done|]. exists (c1 ++ c2). assert (S n = length ops) as -> by lia.
        assert (take (length ops) (elems_of s1 p) = ops) as Et.
        { assert (take (length ops) (slots s1 p) = ops) as Et by (rewrite Hs1; apply take_app). unfold slots in Et. rewrite take_app_le in Et; [done|lia]. }
        assert (slots s1 p = ops ++ rest) as Hs1' by done.
        destruct (decide _) as [Hd|Hd].
        + rewrite load_slots by done. cbn [vs_spare set_slots v_arr]. rewrite decide_True by done. rewrite Et. split_and!; try done.
          * assert (ops ++ drop (length ops) (elems_of s1 p) ++ spare_of s1 p = slots s1 p) as ->; [|done]. transitivity (take (length ops) (elems_of s1 p) ++ drop (length ops) (elems_of s1 p) ++ spare_of s1 p); [by rewrite Et|].
            by rewrite (assoc_L (++)), take_drop.
          * eexists. rewrite Lb. reflexivity.
        + rewrite take_ge in Et by lia. unfold elems_of in Et. unfold slots, elems_of, spare_of in Hall.
          destruct (v_arr (load s1 p)) as [arr|] eqn:Ea; cbn in *; [|subst ops; cbn in Hlo; lia]. subst arr. split_and!; try done. eauto. }
    exists s3, (LArr p :: cc ++ co). split_and!; try done.
    + assert (to_type (fields_of (load s p)) ArrayType = fields_of (load s3 p)) as -> by (by rewrite L3, La').
      apply hd_val; [done| |].
      * apply (ha_some _ p ops); [by rewrite L3|done|]. assert (vs_spare s3 p = vs_spare s2 p) as -> by done.
        apply (hslots_frame s1 s3 _ _ _ _ K13 Hh). intros c Hc ->. by apply (Hnp _ (Hcc _ Hc)).
      * apply (hobj_frame s1 s3 _ _ _ _ K13 Ho2 Hin1); [by rewrite L3, La', Lb|]. intros c Hc ->. apply (Hco _ Hc). by left.
    + by apply Hnew.
    + by apply Hsub.
    + apply (left_trans _ _ _ _ _ K1' K13). intros y ->. left. by left.
  - assert (∃ s0 r gm c, unmarshal (JObj es) s p = (let '(s1, err) := obj_loop unmarshal r es s0 in
            if err then (s1, true) else (set_type s1 p ObjectType, false)) ∧
     hmaps (vs_heap s0) !! r = Some gm ∧ msorted gm ∧ hassoc s0 gm (default [] o) c ∧ NoDup (LMap r :: c) ∧ in_store s0 p ∧ harr s0 p a ca ∧
     load s0 p = mkValue (v_int (load s p)) (v_uint (load s p)) (v_float (load s p)) (v_ts (load s p)) (v_str (load s p)) (v_arr (load s p)) (Some r) (v_bool (load s p)) (v_type (load s p)) ∧
     (∀ x, x ∈ LMap r :: c → x ∈ co ∨ fresh (vs_heap s) x) ∧ left s s0 (λ c, c ∈ LArr p :: ca ++ co)) as (s0 & r & gm & c & Hu & Hg0 & Hs0 & Ha0 & Nc & Hin0 & Har & L0 & Hc & K0).
    { apply NoDup_cons in Hnd as [Hp Hnd]. apply NoDup_app in Hnd as (_ & Hd & Nco). inversion Ho as [p' Eo|p' r gm e c Eo Hg Hs Hx]; subst p' o co.
      - eexists _, (length (hmaps (vs_heap s))), [], []. split_and!; [cbn [unmarshal]; rewrite Eo; reflexivity| |done|apply has_nil|apply NoDup_singleton| | | | |].
        + cbn. by apply list_lookup_middle.
        + unfold in_store. cbn. by rewrite insert_length.
        + apply (harr_frame s _ (only p) _ _ _); [|done|done| |done|].
          * split; [|done]. split_and!; cbn; [by rewrite insert_length|rewrite app_length; lia| |].
            -- intros q v Hq Hv. rewrite list_lookup_insert_ne; [done|]. intros ->. by apply Hq.
            -- intros r gm _ Hr. by apply lookup_app_l_Some.
          * match goal with |- v_arr (load (mkVS ?h ?sp ?rm) p) = _ => rewrite (load_of (mkVS h sp rm) p _ (list_lookup_insert _ _ _ Hin)) end. done.
          * intros c Hc ->. apply Hp, elem_of_app. by left.
        + apply load_of. cbn. by apply list_lookup_insert.
        + intros x Hx. apply elem_of_list_singleton in Hx as ->. right. cbn. lia.
        + split; [|done]. split_and!; cbn; [by rewrite insert_length|rewrite app_length; lia| |].
          * intros q v Hq Hv. rewrite list_lookup_insert_ne; [done|]. intros ->. apply Hq. by left.
          * intros r gm _ Hr. by apply lookup_app_l_Some.
      - exists s, r, gm, c. split_and!; try done.
        + cbn [unmarshal]. by rewrite Eo.
        + destruct (load s p); cbn in *. by rewrite Eo.
        + by left. }
    rewrite Hu. clear Hu.
    destruct (obj_keeps r es IH s0 gm (default [] o) c Hg0 Hs0 Ha0 Nc) as (s1 & gm' & c' & -> & Hg1 & Hs1 & Ha1 & Nc' & Hc' & K1).
    cbn [decode]. destruct (dec_entries decode es (default [] o)) as [e ok]. cbn [fst snd] in *.
    assert (LMap r ∉ ca ∧ ∀ x, x ∈ LMap r :: c' → x ∉ LArr p :: ca) as [Hrca Hdis].
    { assert (∀ x, x ∈ LMap r :: c → x ∉ LArr p :: ca) as Hx.
      { intros x Hx. destruct (Hc x Hx) as [H'|H'].
        - apply NoDup_cons in Hnd as [H1 H2]. apply NoDup_app in H2 as (_ & H2 & _). intros Hy. apply elem_of_cons in Hy as [->|Hy]; [|by apply (H2 x)].
          apply H1, elem_of_app. by right.
        - intros Hy. apply elem_of_cons in Hy as [->|Hy]; [unfold in_store in Hin; cbn [fresh] in H'; lia|].
          by apply (proj1 (proj2 (holds_alloc_all s)) _ _ _ Ha x). }
      split; [intros Hy; apply (Hx (LMap r)); [by left|by right]|]. intros x Hy. apply elem_of_cons in Hy as [->|Hy]; [apply Hx; by left|].
      destruct (Hc' x Hy) as [H'|H']; [apply Hx; by right|]. apply (kept_fresh _ _ _ _ (proj1 K0)) in H'.
      intros Hz. apply elem_of_cons in Hz as [->|Hz]; [unfold in_store in Hin; cbn [fresh] in H'; lia|].
      by apply (proj1 (proj2 (holds_alloc_all s)) _ _ _ Ha x). }
    pose proof (in_store_left _ _ _ _ K1 Hin0) as Hin1.
    assert (load s1 p = load s0 p) as L1 by (by apply (load_left s0 s1 (λ c, c = LMap r))).
    assert (harr s1 p a ca) as Har1.
    { apply (harr_frame s0 s1 _ _ _ _ K1 Har Hin0); [by rewrite L1|by apply (proj2 K1)|]. intros x Hx ->. done. }
    assert (NoDup (LArr p :: ca ++ LMap r :: c')) as Nall.
    { apply NoDup_cons in Hnd as [H1 H2]. apply NoDup_app in H2 as (H2 & _). apply NoDup_cons. split.
      - rewrite elem_of_app. intros [Hx|Hx]; [apply H1, elem_of_app; by left|]. apply (Hdis _ Hx). by left.
      - apply NoDup_app. split_and!; [done| |done]. intros x Hx Hy. apply (Hdis x Hy). by right. }
    assert (∀ x, x ∈ LArr p :: ca ++ LMap r :: c' → x ∈ LArr p :: ca ++ co ∨ fresh (vs_heap s) x) as Hcs.
    { intros x Hx. apply elem_of_cons in Hx as [->|Hx]; [left; by left|]. apply elem_of_app in Hx as [Hx|Hx]; [left; right; apply elem_of_app; by left|].
      assert (x ∈ LMap r :: c ∨ fresh (vs_heap s0) x) as [Hy|Hy].
      { apply elem_of_cons in Hx as [->|Hx]; [left; by left|]. destruct (Hc' x Hx); [left; by right|by right]. }
      - destruct (Hc x Hy); [left; right; apply elem_of_app; by right|by right].
      - right. exact (kept_fresh _ _ _ _ (proj1 K0) Hy). }
    assert (left s s1 (λ c, c ∈ LArr p :: ca ++ co)) as K01.
    { apply (left_trans _ _ _ _ _ K0 K1). intros x ->. destruct (Hc (LMap r) ltac:(by left)); [left; right; apply elem_of_app; by right|by right]. }
    destruct ok; cbn [negb].
    + pose proof (left_set_type s1 p ObjectType) as K2. set (s2 := set_type s1 p ObjectType) in *. pose proof (in_store_left _ _ _ _ K2 Hin1) as Hin2.
      assert (load s2 p = mkValue (v_int (load s p)) (v_uint (load s p)) (v_float (load s p)) (v_ts (load s p)) (v_str (load s p)) (v_arr (load s p)) (Some r) (v_bool (load s p)) ObjectType) as L2
        by (unfold s2; rewrite load_type, L1, L0 by done; done).
      exists s2, (LArr p :: ca ++ LMap r :: c'). split_and!; try done.
      * assert (to_type (fields_of (load s p)) ObjectType = fields_of (load s2 p)) as -> by (by rewrite L2).
        apply hd_val; [done| |].
        -- apply (harr_frame s1 s2 _ _ _ _ K2 Har1 Hin1); [by rewrite L2, L1, L0|done|]. intros x Hx ->. apply NoDup_cons in Hnd as [H1 _]. apply H1, elem_of_app. by left.
        -- apply (ho_some _ p r gm'); [by rewrite L2|exact Hg1|done|]. apply (hassoc_frame s1 s2 _ _ _ _ K2 Ha1).
           intros x Hx ->. apply (Hdis (LArr p)); [by right|by left].
      * apply (left_trans _ _ _ _ _ K01 K2). intros x ->. left. by left.
    + exists s1, (LArr p :: ca ++ LMap r :: c'). split_and!; try done.
      assert (fields_of (load s p) = fields_of (load s1 p)) as -> by (by rewrite L1, L0). apply hd_val; [done|done|].
      apply (ho_some _ p r gm'); [by rewrite L1, L0|exact Hg1|done|done].
Qed.

(** ** [decode] is [over] *)
Inductive sane : mem → Prop :=
| sn_nil : sane MNil
| sn_mem f a o : (∀ x, x ∈ slots_of a → sane x) → msorted (default [] o) → sane (Mem f a o).
Lemma zero_sane : sane zero_mem.
Proof. apply sn_mem; [|done]. intros x Hx. by apply elem_of_nil in Hx. Qed.
Lemma hassoc_keys s gm e cs : hassoc s gm e cs → map fst gm = map fst e.
Proof. induction 1; [done|]. cbn. by f_equal. Qed.
Lemma holds_sane_all s :
  (∀ op m cs, holds s op m cs → sane m) ∧
  (∀ p a cs, harr s p a cs → ∀ x, x ∈ slots_of a → sane x) ∧
  (∀ p o cs, hobj s p o cs → msorted (default [] o)) ∧
  (∀ ops ms cs, hslots s ops ms cs → ∀ x, x ∈ ms → sane x) ∧
  (∀ gm e cs, hassoc s gm e cs → True).
Proof.
  apply holds_mutind; try done.
  - apply sn_nil.
  - intros p a o ca co _ _ IHa _ IHo. by apply sn_mem.
  - intros p _ x Hx. by apply elem_of_nil in Hx.
  - intros p r gm e c _ _ Hs Ha _. cbn. apply (keys_msorted gm); [|done]. exact (hassoc_keys s _ _ c Ha).
  - intros n x Hx. by apply elem_of_nil in Hx.
  - intros op ops m ms c cs _ IH1 _ IH2 x Hx. apply elem_of_cons in Hx as [->|Hx]; auto.
Qed.
Lemma sane_hd ms : (∀ x, x ∈ ms → sane x) → sane (hd MNil ms) ∧ ∀ x, x ∈ tl ms → sane x.
Proof. destruct ms as [|m ms]; intros H; cbn; [split; [apply sn_nil|done]|]. split; [apply H; by left|]. intros x Hx. apply H. by right. Qed.
Lemma dec_entries_new es new ok : (∀ e, dec_entries decode es e = (fold_left (λ m kv, mset kv.1 kv.2 m) new e, ok)) →
  ∀ e0 e, msorted e0 → later_wins (e0 ++ new) e ↔ dec_entries decode es e0 = (e, ok).
Proof.
  intros H e0 e Hs. rewrite H. pose proof (mof_list_later (e0 ++ new)) as HL. unfold mof_list in HL. rewrite fold_left_app in HL.
  change (fold_left (λ m kv, mset kv.1 kv.2 m) e0 []) with (mof_list e0) in HL. rewrite mof_list_sorted in HL by done. split.
  - intros HL'. by rewrite (later_wins_unique _ _ _ HL HL').
  - by intros [= <-].
Qed.
Lemma over_decode :
  (∀ j m m' ok, over j m m' ok → jvalid j → sane m → decode j m = (m', ok)) ∧
  (∀ j x x' ok, over1 j x x' ok → jvalid j → sane x → dec_elem decode j x = (x', ok)) ∧
  (∀ l ms xs rest ok, overs l ms xs rest ok → Forall jvalid l → (∀ x, x ∈ ms → sane x) → dec_elems decode l ms = (xs, rest, ok)) ∧
  (∀ es new ok, adds es new ok → Forall (λ kv, jvalid kv.2) es → ∀ e, dec_entries decode es e = (fold_left (λ m kv, mset kv.1 kv.2 m) new e, ok)).
Proof.
  apply over_mutind; try done.
  - intros neg n e b f a o Hd Hv _. cbn [decode]. apply double_for_iff in Hd; [|done]. by rewrite Hd.
  - intros neg n e f a o Hd Hv _. cbn [decode]. destruct (f64_of_dec neg n e) as [b|] eqn:E; [|done]. apply double_for_iff in E; [|done]. by destruct (Hd b).
  - intros j l f a o xs rest _ IH Hv Hs. inversion Hs as [|? ? ? H1 H2]; subst. apply jvalid_arr in Hv. change (decode (JArr (j :: l)) (Mem f a o)) with
      (let '(xs, rest, ok) := dec_elems decode (j :: l) (slots_of a) in
          if ok then (Mem (to_type f ArrayType) (Some (xs, rest)) o, true)
          else
            let n := Nat.max (visible a) (length xs) in
            (Mem f (Some (take n (xs ++ rest), drop n (xs ++ rest))) o, false)). by rewrite (IH Hv H1).
  - intros l f a o xs rest vis hid _ IH E El Hv Hs. inversion Hs as [|? ? ? H1 H2]; subst. apply jvalid_arr in Hv. cbn [decode]. rewrite (IH Hv H1). cbv zeta.
    rewrite <-El, <-E, take_app, drop_app. done.
  - intros es f a o new e ok _ IH HL Hv Hs. inversion Hs as [|? ? ? H1 H2]; subst. rewrite jvalid_obj in Hv. assert (Forall (λ kv : string * json, jvalid kv.2) es) as Hv' by (apply (Forall_impl _ _ _ Hv); by intros ? [_ ?]). clear Hv. rename Hv' into Hv. cbn [decode].
    by rewrite (proj1 (dec_entries_new es new ok (IH Hv) (default [] o) e H2) HL).
  - intros j x ok Hn _ IH Hv Hs. rewrite <-(IH Hv zero_sane). by destruct j.
  - intros j f a o x ok Hn _ IH Hv Hs. rewrite <-(IH Hv Hs). by destruct j.
  - intros j l ms x xs rest ok _ IH1 _ IH2 Hv Hs. apply Forall_cons in Hv as [Hv1 Hv2]. destruct (sane_hd ms Hs) as [S1 S2].
    cbn [dec_elems]. by rewrite (IH1 Hv1 S1), (IH2 Hv2 S2).
  - intros j l ms x _ IH1 Hv Hs. apply Forall_cons in Hv as [Hv1 Hv2]. destruct (sane_hd ms Hs) as [S1 S2].
    cbn [dec_elems]. by rewrite (IH1 Hv1 S1).
  - intros k j es x new ok _ IH1 _ IH2 Hv e. apply Forall_cons in Hv as [Hv1 Hv2]. cbn [dec_entries fold_left fst snd].
    by rewrite (IH1 Hv1 sn_nil), (IH2 Hv2).
  - intros k j es x _ IH1 Hv e. apply Forall_cons in Hv as [Hv1 Hv2]. cbn [dec_entries fold_left]. by rewrite (IH1 Hv1 sn_nil).
Qed.
Definition decodes (j : json) : Prop := ∀ m, jvalid j → sane m → m ≠ MNil → over j m (decode j m).1 (decode j m).2.
Lemma elem_decodes j x : decodes j → jvalid j → sane x → over1 j x (dec_elem decode j x).1 (dec_elem decode j x).2.
Proof.
  intros H Hv Hs. assert (j = JNull ∨ j ≠ JNull) as [->|Hn] by (destruct j; (by left) || (by right)); [apply o1_null|].
  assert (dec_elem decode j x = decode j (match x with MNil => zero_mem | Mem _ _ _ => x end)) as -> by (by destruct j).
  destruct x as [|f a o]; [apply o1_new; [done|]; by apply H; [|apply zero_sane|]|apply o1_old; [done|by apply H]].
Qed.
Lemma over_all j : decodes j.
Proof.
  induction j as [|b|neg n e|x|l IH|es IH] using json_ind'; intros m Hv Hs Hm; destruct m as [|f a o]; try done; inversion Hs as [|? ? ? H1 H2]; subst.
  - apply ov_null.
  - apply ov_bool.
  - cbn [decode]. destruct (f64_of_dec neg n e) as [b|] eqn:E; [apply ov_num; by apply double_for_iff|]. apply ov_big. intros b Hb.
    apply double_for_iff in Hb; [|done]. congruence.
  - apply ov_str.
  - apply jvalid_arr in Hv.
    assert (∀ l ms, Forall decodes l → Forall jvalid l → (∀ x, x ∈ ms → sane x) →
      overs l ms (dec_elems decode l ms).1.1 (dec_elems decode l ms).1.2 (dec_elems decode l ms).2) as Hl.
    { clear. induction l as [|j l IH]; intros ms HD HV HS; [apply os_nil|]. apply Forall_cons in HD as [D1 D2]. apply Forall_cons in HV as [V1 V2].
      destruct (sane_hd ms HS) as [S1 S2]. cbn [dec_elems]. pose proof (elem_decodes j _ D1 V1 S1) as He. specialize (IH (tl ms) D2 V2 S2).
      destruct (dec_elem decode j (hd MNil ms)) as [x ok]. destruct (dec_elems decode l (tl ms)) as [[xs rest] ok']. cbn [fst snd] in *.
      destruct ok; [by apply os_cons|by apply os_fail]. }
    specialize (Hl l (slots_of a) IH Hv H1). pose proof (dec_elems_length l (slots_of a)) as Hlen. cbn [decode].
    destruct (dec_elems decode l (slots_of a)) as [[xs rest] ok] eqn:Ed. cbn [fst snd] in *.
    destruct ok.
    + destruct l as [|j l]; [cbn in Ed; injection Ed as <- <-; apply ov_empty|]. by apply ov_arr.
    + cbv zeta. cbn [fst snd]. apply (ov_arr_fails l f a o xs rest); [done|by rewrite take_drop|]. rewrite take_length, app_length.
      assert (visible a ≤ length (slots_of a)); [|lia]. destruct a as [[vis hid]|]; cbn; [rewrite app_length|]; lia.
  - rewrite jvalid_obj in Hv. assert (Forall (λ kv : string * json, jvalid kv.2) es) as Hv' by (apply (Forall_impl _ _ _ Hv); by intros ? [_ ?]). clear Hv. rename Hv' into Hv.
    assert (∀ es, Forall (λ kv : string * json, decodes kv.2) es → Forall (λ kv : string * json, jvalid kv.2) es →
      ∃ new ok, adds es new ok) as Hl.
    { clear. induction es as [|[k j] es IH]; intros HD HV; [exists [], true; apply ad_nil|]. apply Forall_cons in HD as [D1 D2]. apply Forall_cons in HV as [V1 V2].
      pose proof (elem_decodes j MNil D1 V1 sn_nil) as He. destruct (dec_elem decode j MNil) as [x ok]. cbn [fst snd] in He.
      destruct (IH D2 V2) as (new & ok' & Hn). destruct ok; [exists ((k, x) :: new), ok'; by apply ad_cons|exists [], false; by apply (ad_fail _ _ _ x)]. }
    destruct (Hl es IH Hv) as (new & ok & Hn). pose proof (proj2 (proj2 (proj2 over_decode)) es new ok Hn Hv) as Hd.
    cbn [decode]. rewrite Hd. cbn [fst snd]. apply (ov_obj es f a o new); [done|]. apply (dec_entries_new es new ok Hd); [done|]. apply Hd.
Qed.
Lemma over_iff j m m' ok : jvalid j → sane m → m ≠ MNil → over j m m' ok ↔ decode j m = (m', ok).
Proof.
  intros Hv Hs Hm. split; [intros H; by apply over_decode|]. intros E. pose proof (over_all j m Hv Hs Hm) as H. by rewrite E in H.
Qed.

(** ** What is shown *)
Lemma covered_arr l f a o : covered (JArr l) (Mem f a o) ↔ ∀ i j, l !! i = Some j → covered j (nth i (slots_of a) MNil).
Proof.
  split; [|apply cv_arr]. intros H. inversion H as [? ? Hl| |? ? ? ? H'|]; subst; [by destruct (Hl l)|done].
Qed.
Lemma covered_obj es f a o : covered (JObj es) (Mem f a o) ↔ ∀ k, k ∈ map fst (default [] o) → k ∈ map fst es.
Proof.
  split; [|apply cv_obj]. intros H. inversion H as [? ? _ Hl| | |? ? ? ? H']; subst; [by destruct (Hl es)|done].
Qed.
Lemma covered_zero j : covered j zero_mem.
Proof.
  destruct j as [| | | |l|es]; try (by apply cv_plain); [apply covered_arr|apply covered_obj].
  - intros i j _. destruct i; apply cv_new.
  - intros k Hk. by apply elem_of_nil in Hk.
Qed.
Lemma displays_arr f a o ts : f_type f = ArrayType → displays (Mem f (Some a) o) (TArr ts) ↔ Forall2 displays a.1 ts.
Proof. destruct a as [vis hid]. intros E. split; [by inversion 1|]. by apply dp_arr. Qed.
Lemma displays_obj f a e ts : f_type f = ObjectType → displays (Mem f a (Some e)) (TObj ts) ↔ Forall2 (λ kx kt, kx.1 = kt.1 ∧ displays kx.2 kt.2) e ts.
Proof. intros E. split; [by inversion 1|]. by apply dp_obj. Qed.
Lemma Forall2_mset {A B} (R : A → B → Prop) k x y (l : list (string * A)) l' : R x y → Forall2 (λ a b, a.1 = b.1 ∧ R a.2 b.2) l l' →
  Forall2 (λ a b, a.1 = b.1 ∧ R a.2 b.2) (mset k x l) (mset k y l').
Proof.
  intros Hx H. induction H as [|[k1 a] [k2 b] l l' [E H] Hr IH]; [by repeat constructor|]. simpl in *. subst k2.
  destruct (String.compare k k1); constructor; try done. by constructor.
Qed.
Lemma Forall2_fold {A B} (R : A → B → Prop) (n : list (string * A)) n' : Forall2 (λ a b, a.1 = b.1 ∧ R a.2 b.2) n n' → ∀ l l',
  Forall2 (λ a b, a.1 = b.1 ∧ R a.2 b.2) l l' →
  Forall2 (λ a b, a.1 = b.1 ∧ R a.2 b.2) (fold_left (λ m kv, mset kv.1 kv.2 m) n l) (fold_left (λ m kv, mset kv.1 kv.2 m) n' l').
Proof. induction 1 as [|[k x] [k' y] n n' [E H] _ IH]; intros l l' Hl; [done|]. cbn [fold_left fst snd] in *. subst k'. apply IH. by apply Forall2_mset. Qed.
Lemma mget_fold_both {A} k (n : list (string * A)) m1 m2 : In k (map fst n) →
  mget k (fold_left (λ m kv, mset kv.1 kv.2 m) n m1) = mget k (fold_left (λ m kv, mset kv.1 kv.2 m) n m2).
Proof.
  induction n as [|[k1 x] n IH] using rev_ind; [done|]. rewrite map_app, in_app_iff, !fold_left_app. cbn [fold_left fst snd map].
  rewrite !mget_mset. destruct (String.eqb_spec k k1); [done|]. intros [H|[->|[]]]; [by apply IH|done].
Qed.
Lemma in_dec_keys (k : string) l : In k l ∨ ¬ In k l.
Proof. destruct (in_dec string_dec k l); auto. Qed.
Lemma fold_keeps_key {A} k (n : list (string * A)) : ∀ m, In k (map fst m) → In k (map fst (fold_left (λ m kv, mset kv.1 kv.2 m) n m)).
Proof.
  induction n as [|[k1 x] n IH]; intros m H; [done|]. cbn [fold_left fst snd]. apply IH.
  destruct (mget k (mset k1 x m)) as [v|] eqn:E; [apply mget_Some_In in E; by apply (in_map fst) in E|]. exfalso.
  rewrite mget_mset in E. destruct (String.eqb k k1); [done|]. by apply mget_None_In in E.
Qed.
Lemma shown_all j : ∀ m m' t, sane m → m ≠ MNil → decode j m = (m', true) → top_tree j = Some t → (displays m' t ↔ covered j m).
Proof.
  assert (∀ j, (∀ m m' t, sane m → m ≠ MNil → decode j m = (m', true) → top_tree j = Some t → (displays m' t ↔ covered j m)) →
    ∀ x x' t, sane x → dec_elem decode j x = (x', true) → value_of_json j = Some t → (displays x' t ↔ covered j x)) as Helem.
  { clear. intros j H x x' t Hs Hd Ht. assert (j = JNull ∨ j ≠ JNull) as [->|Hn] by (destruct j; (by left) || (by right)).
    - injection Hd as <-. injection Ht as <-. split; intros _; [by apply cv_plain|apply dp_nil].
    - assert (dec_elem decode j x = decode j (match x with MNil => zero_mem | Mem _ _ _ => x end)) as E by (by destruct j). rewrite E in Hd. clear E.
      assert (top_tree j = Some t) as Ht' by (by destruct j). destruct x as [|f a o]; [|by apply H].
      rewrite (H zero_mem x' t zero_sane ltac:(done) Hd Ht'). split; intros _; [apply cv_new|apply covered_zero]. }
  induction j as [|b|neg n e|x|l IH|es IH] using json_ind'; intros m m' t Hs Hm Hd Ht; destruct m as [|f a o]; try done; inversion Hs as [|? ? ? H1 H2]; subst.
  - injection Hd as <-. injection Ht as <-. split; intros _; [by apply cv_plain|by apply dp_null].
  - injection Hd as <-. injection Ht as <-. split; intros _; [by apply cv_plain|]. by apply (dp_bool (mkFields _ _ _ _ _ b _)).
  - cbn [decode top_tree value_of_json] in *. destruct (f64_of_dec neg n e) as [b|]; [|done].
    injection Hd as <-. injection Ht as <-. split; intros _; [by apply cv_plain|]. by apply (dp_float (mkFields _ _ b _ _ _ _)).
  - injection Hd as <-. injection Ht as <-. split; intros _; [by apply cv_plain|]. by apply (dp_str (mkFields _ _ _ _ x _ _)).
  - cbn [decode] in Hd. change (option_map TArr (osequence (map value_of_json l)) = Some t) in Ht.
    destruct (osequence (map value_of_json l)) as [ts|] eqn:Es; [|done]. injection Ht as <-. apply osequence_all in Es.
    destruct (dec_elems decode l (slots_of a)) as [[xs rest] ok] eqn:Ed. destruct ok; [|done]. injection Hd as <-.
    rewrite displays_arr by done. cbn [fst]. rewrite covered_arr. set (ms := slots_of a) in *. clearbody ms. clear -Helem IH Es Ed H1.
    revert ms ts xs rest Ed Es H1. induction l as [|j l IHl]; intros ms ts xs rest Ed Es H1.
    + injection Ed as <- <-. apply Forall2_nil_inv_l in Es as ->. split; [done|]. intros _. apply Forall2_nil_2.
    + apply Forall2_cons_inv_l in Es as (t & ts' & Et & Es & ->). apply Forall_cons in IH as [Hj IH]. cbn [dec_elems] in Ed.
      destruct (dec_elem decode j (hd MNil ms)) as [x ok] eqn:Ee. destruct ok; [|done].
      destruct (dec_elems decode l (tl ms)) as [[xs' rest'] ok] eqn:Ed'. injection Ed as <- <- ->.
      destruct (sane_hd ms H1) as [S1 S2]. specialize (IHl IH (tl ms) ts' xs' rest' Ed' Es S2).
      pose proof (Helem j Hj (hd MNil ms) x t S1 Ee Et) as Hx. rewrite Forall2_cons, Hx, IHl. 
      assert (∀ i, nth (S i) ms MNil = nth i (tl ms) MNil) as En. { intros i. destruct ms; [by destruct i|done]. }
      assert (nth 0 ms MNil = hd MNil ms) as E0 by (by destruct ms). split.
      * intros [Ha Hb] [|i] j' Hi; [injection Hi as <-; by rewrite E0|]. rewrite En. by apply Hb.
      * intros H. split; [rewrite <-E0; by apply H|]. intros i j' Hi. rewrite <-En. by apply H.
  - change (match fields_of_json es with Some ts => Some (TObj (mof_list ts)) | None => None end = Some t) in Ht.
    destruct (fields_of_json es) as [ts|] eqn:Es; [|done]. injection Ht as <-. unfold fields_of_json in Es. apply osequence_pairs in Es.
    cbn [decode] in Hd. destruct (dec_entries decode es (default [] o)) as [e ok] eqn:Ed. injection Hd as <- ->.
    rewrite displays_obj by done. rewrite covered_obj. set (e0 := default [] o) in *. clearbody e0. clear -Helem IH Es Ed H2.
    assert (∃ new, e = fold_left (λ m kv, mset kv.1 kv.2 m) new e0 ∧ Forall2 (λ kx kt, kx.1 = kt.1 ∧ displays kx.2 kt.2) new ts) as (new & -> & Hn).
    { clear H2. revert e0 Ed. induction Es as [|[k j] [k' t] es ts [Ek Et] Es IHs]; intros e0 Ed.
      - injection Ed as <-. exists []. split; [done|apply Forall2_nil_2].
      - apply Forall_cons in IH as [Hj IH]. cbn [fst snd dec_entries] in *. subst k'. destruct (dec_elem decode j MNil) as [x ok] eqn:Ee. destruct ok; [|done].
        destruct (IHs IH _ Ed) as (new & -> & Hn). exists ((k, x) :: new). split; [done|]. apply Forall2_cons. split; [|done]. split; [done|].
        apply (Helem j Hj MNil x t sn_nil Ee Et). apply cv_new. }
    assert (map fst new = map fst ts) as Ek by (clear -Hn; induction Hn as [|? ? ? ? [? _] _ IH]; [done|]; cbn; congruence).
    assert (map fst es = map fst ts) as Ek' by (clear -Es; induction Es as [|? ? ? ? [? _] _ IH]; [done|]; cbn; congruence).
    rewrite Ek', <-Ek. unfold mof_list. split.
    + intros HF k Hk. apply elem_of_list_In in Hk. apply elem_of_list_In.
      assert (In k (map fst (fold_left (λ m kv, mset kv.1 kv.2 m) new e0))) as H by (by apply fold_keeps_key).
      assert (map fst (fold_left (λ m kv, mset kv.1 kv.2 m) new e0) = map fst (fold_left (λ m kv, mset kv.1 kv.2 m) ts [])) as E
        by (clear -HF; induction HF as [|? ? ? ? [? _] _ IH]; [done|]; cbn; congruence).
      rewrite E in H. rewrite Ek. destruct (in_dec_keys k (map fst ts)) as [|Hno]; [done|]. exfalso.
      apply (mget_None_In k (fold_left (λ m kv, mset kv.1 kv.2 m) ts [])); [by rewrite mget_fold_mset_notin|exact H].
    + intros Hk. assert (fold_left (λ m kv, mset kv.1 kv.2 m) new e0 = fold_left (λ m kv, mset kv.1 kv.2 m) new []) as ->.
      { apply gomap_ext; [by apply msorted_fold_mset|by apply msorted_fold_mset|]. intros k. destruct (in_dec_keys k (map fst new)) as [Hin|Hno]; [by apply mget_fold_both|].
        rewrite !mget_fold_mset_notin by done. apply mget_None_In. intros H. apply Hno. apply elem_of_list_In, Hk. by apply elem_of_list_In. }
      by apply Forall2_fold; [|apply Forall2_nil_2].
Qed.
Lemma decode_ok j : ∀ m, m ≠ MNil → (decode j m).2 = match top_tree j with Some _ => true | None => false end.
Proof.
  assert (∀ j, (∀ m, m ≠ MNil → (decode j m).2 = match top_tree j with Some _ => true | None => false end) →
    ∀ x, (dec_elem decode j x).2 = match value_of_json j with Some _ => true | None => false end) as Helem.
  { clear. intros j H x. assert (j = JNull ∨ j ≠ JNull) as [->|Hn] by (destruct j; (by left) || (by right)); [done|].
    assert (dec_elem decode j x = decode j (match x with MNil => zero_mem | Mem _ _ _ => x end)) as -> by (by destruct j).
    rewrite H by (by destruct x). by destruct j. }
  induction j as [|b|neg n e|x|l IH|es IH] using json_ind'; intros m Hm; destruct m as [|f a o]; try done.
  - cbn [decode top_tree value_of_json]. by destruct (f64_of_dec neg n e).
  - change (top_tree (JArr l)) with (option_map TArr (osequence (map value_of_json l))).
    assert (∀ ms, (dec_elems decode l ms).2 = match osequence (map value_of_json l) with Some _ => true | None => false end) as H.
    { clear -IH Helem. induction l as [|j l IHl]; intros ms; [done|]. apply Forall_cons in IH as [Hj IH]. cbn [dec_elems map osequence].
      pose proof (Helem j Hj (hd MNil ms)) as He. destruct (dec_elem decode j (hd MNil ms)) as [x ok]. cbn [snd] in He. subst ok.
      destruct (value_of_json j); [|done]. specialize (IHl IH (tl ms)). destruct (dec_elems decode l (tl ms)) as [[xs rest] ok]. cbn [snd] in *. rewrite IHl.
      by destruct (osequence _). }
    specialize (H (slots_of a)). cbn [decode]. destruct (dec_elems decode l (slots_of a)) as [[xs rest] ok]. cbn [snd] in H. rewrite H.
    by destruct (osequence _).
  - assert (top_tree (JObj es) = match fields_of_json es with Some ts => Some (TObj (mof_list ts)) | None => None end) as -> by done.
    assert (∀ e, (dec_entries decode es e).2 = match fields_of_json es with Some _ => true | None => false end) as H.
    { clear -IH Helem. unfold fields_of_json. induction es as [|[k j] es IHl]; intros e; [done|]. apply Forall_cons in IH as [Hj IH]. cbn [dec_entries map osequence snd] in *.
      pose proof (Helem j Hj MNil) as He. destruct (dec_elem decode j MNil) as [x ok]. cbn [snd] in He. subst ok.
      destruct (value_of_json j); [|done]. rewrite (IHl IH). by destruct (osequence _). }
    specialize (H (default [] o)). cbn [decode]. destruct (dec_entries decode es (default [] o)) as [e ok]. cbn [snd] in *. rewrite H. by destruct (fields_of_json es).
Qed.
