(** * json.Unmarshal into a Value that already holds something.

    value.go:112-157 decodes arrays and objects with json.Unmarshal(data, &v.Array) and
    json.Unmarshal(data, &v.Object), into what the fields hold already.  Json.v's
    [value_of_json] is the case of a new Value; here is the general one, on the heap. *)
From Verif Require Export JsonMeaning.
From Coq Require Import Lia.

(** ** The model *)
(** A heap, for every value the slots of [Array] between its length and its capacity,
    and the implementation's choices of spare capacity.  Simplified: no two values
    share a backing array (cf. Slices.v). *)
Record vstore : Type := mkVS {
  vs_heap : heap;
  vs_spare : ptr → list (option ptr);
  vs_room : list nat
}.
Definition load (s : vstore) (p : ptr) : Value := default zeroValue (hvals (vs_heap s) !! p).
Definition save (s : vstore) (p : ptr) (v : Value) : vstore := mkVS (set_val (vs_heap s) p v) (vs_spare s) (vs_room s).
Definition elems_of (s : vstore) (p : ptr) : list (option ptr) := default [] (v_arr (load s p)).
(** The nil slice has no capacity. *)
Definition spare_of (s : vstore) (p : ptr) : list (option ptr) :=
  match v_arr (load s p) with None => [] | Some _ => vs_spare s p end.
Definition set_slots (s : vstore) (p : ptr) (l sp : list (option ptr)) : vstore :=
  let v := load s p in
  mkVS (set_val (vs_heap s) p (mkValue (v_int v) (v_uint v) (v_float v) (v_ts v) (v_str v) (Some l) (v_obj v) (v_bool v) (v_type v)))
       (λ q, if decide (q = p) then sp else vs_spare s q) (vs_room s).
(** [new(Value)]. *)
Definition new_value (s : vstore) : vstore * ptr :=
  (mkVS (mkHeap (hvals (vs_heap s) ++ [zeroValue]) (hmaps (vs_heap s))) (vs_spare s) (vs_room s), length (hvals (vs_heap s))).

(** value.go:121-124, encoding/json decode.go array: slot [i] is made accessible, within
    the capacity by lengthening the slice, else in a larger copy. *)
Definition make_room (s : vstore) (p : ptr) (i : nat) : vstore :=
  let l := elems_of s p in
  let all := l ++ spare_of s p in
  if decide (i < length l) then s
  else if decide (i < length all) then set_slots s p (take (S i) all) (drop (S i) all)
  else
    let s' := set_slots s p (l ++ replicate (S i - length l) None) (replicate (hd 0 (vs_room s)) None) in
    mkVS (vs_heap s') (vs_spare s') (tl (vs_room s')).
Definition slot (s : vstore) (p : ptr) (i : nat) : option ptr := default None (elems_of s p !! i).
Definition set_slot (s : vstore) (p : ptr) (i : nat) (x : option ptr) : vstore :=
  set_slots s p (<[i := x]> (elems_of s p)) (spare_of s p).
(** value.go:121-124, decode.go array, at the end: the slice is cut to the number of
    elements; for none it is a new empty one. *)
Definition cut (s : vstore) (p : ptr) (n : nat) : vstore :=
  let l := elems_of s p in
  match n with
  | O => set_slots s p [] []
  | _ => if decide (n < length l) then set_slots s p (take n l) (drop n l ++ spare_of s p) else s
  end.
Definition set_type (s : vstore) (p : ptr) (ty : N) : vstore :=
  let v := load s p in
  save s p (mkValue (v_int v) (v_uint v) (v_float v) (v_ts v) (v_str v) (v_arr v) (v_obj v) (v_bool v) ty).

Section loops.
  Context (f : json → vstore → ptr → vstore * bool).
  (** decode.go array: null stores nil; otherwise the value the slot points to is
      decoded into, a new one if it is nil.  The flag is whether there is an error. *)
  Fixpoint arr_loop (p : ptr) (l : list json) (i : nat) (s : vstore) : vstore * bool :=
    match l with
    | [] => (s, false)
    | j :: l' =>
        let s1 := make_room s p i in
        let '(s2, err) :=
          match j with
          | JNull => (set_slot s1 p i None, false)
          | _ =>
              match slot s1 p i with
              | Some q => f j s1 q
              | None => let '(s2, q) := new_value s1 in f j (set_slot s2 p i (Some q)) q
              end
          end in
        if err then (s2, true) else arr_loop p l' (S i) s2
    end.
  (** decode.go object: every entry is decoded into a new value and then stored. *)
  Fixpoint obj_loop (r : mref) (m : list (string * json)) (s : vstore) : vstore * bool :=
    match m with
    | [] => (s, false)
    | (k, j) :: m' =>
        let '(s2, op, err) :=
          match j with
          | JNull => (s, None, false)
          | _ => let '(s1, q) := new_value s in let '(s2, err) := f j s1 q in (s2, Some q, err)
          end in
        if err : bool then (s2, true)
        else
          let h := vs_heap s2 in
          let gm := map_of h (Some r) in
          obj_loop r m' (mkVS (mkHeap (hvals h) (<[r := mset k op gm]> (hmaps h))) (vs_spare s2) (vs_room s2))
    end.
End loops.
(** value.go:112-157 UnmarshalJSON of a JSON value (null only at the top: elsewhere
    encoding/json does not call it); the flag is whether an error is returned. *)
Fixpoint unmarshal (j : json) (s : vstore) (p : ptr) {struct j} : vstore * bool :=
  let v := load s p in
  match j with
  | JNull => (set_type s p NullType, false)
  | JBool b => (save s p (mkValue (v_int v) (v_uint v) (v_float v) (v_ts v) (v_str v) (v_arr v) (v_obj v) b BoolType), false)
  | JNum neg m e =>
      match f64_of_dec neg m e with
      | Some b => (save s p (mkValue (v_int v) (v_uint v) b (v_ts v) (v_str v) (v_arr v) (v_obj v) (v_bool v) FloatType), false)
      | None => (s, true)
      end
  | JStr x => (save s p (mkValue (v_int v) (v_uint v) (v_float v) (v_ts v) x (v_arr v) (v_obj v) (v_bool v) StringType), false)
  | JArr l =>
      let '(s1, err) := arr_loop unmarshal p l 0 s in
      if err then (s1, true) else (set_type (cut s1 p (length l)) p ArrayType, false)
  | JObj m =>
      let '(s0, r) :=
        match v_obj v with
        | Some r => (s, r)
        | None =>
            let h := vs_heap s in
            (mkVS (mkHeap (<[p := mkValue (v_int v) (v_uint v) (v_float v) (v_ts v) (v_str v) (v_arr v) (Some (length (hmaps h))) (v_bool v) (v_type v)]> (hvals h))
                          (hmaps h ++ [ [] ])) (vs_spare s) (vs_room s), length (hmaps h))
        end in
      let '(s1, err) := obj_loop unmarshal r m s0 in
      if err then (s1, true) else (set_type s1 p ObjectType, false)
  end.
(** json.Unmarshal(text, v): the text is checked first, as a whole. *)
Definition UnmarshalValue (text : list ascii) (s : vstore) (p : ptr) : vstore * bool :=
  match parse text with
  | Some j => if (jdepth j <=? maxNestingDepth)%Z then unmarshal j s p else (s, true)
  | None => (s, true)
  end.

(** ** Specification *)
(** The tree a text says, at the top: null is the Null value there, elsewhere nil. *)
Definition top_tree (j : json) : option tree :=
  match j with JNull => Some TNull | _ => value_of_json j end.

(** ** Proofs *)
(** [rep] with all the cells of the tree, each value as [LArr]. *)
Inductive crep (h : heap) : option ptr → tree → list loc → Prop :=
| crep_nil : crep h None TNil []
| crep_scalar p v t : hvals h !! p = Some v → scalar_tree v = Some t → crep h (Some p) t [LArr p]
| crep_arr p v ops ts cs :
    hvals h !! p = Some v → v_type v = ArrayType → v_obj v = None → v_arr v = Some ops → crep_list h ops ts cs →
    crep h (Some p) (TArr ts) (LArr p :: cs)
| crep_obj p v r gm m cs :
    hvals h !! p = Some v → v_type v = ObjectType → v_obj v = Some r → hmaps h !! r = Some gm → msorted gm →
    crep_assoc h gm m cs → crep h (Some p) (TObj m) (LArr p :: LMap r :: cs)
with crep_list (h : heap) : list (option ptr) → list tree → list loc → Prop :=
| crep_list_nil : crep_list h [] [] []
| crep_list_cons op ops t ts c cs : crep h op t c → crep_list h ops ts cs → crep_list h (op :: ops) (t :: ts) (c ++ cs)
with crep_assoc (h : heap) : list (string * option ptr) → list (string * tree) → list loc → Prop :=
| crep_assoc_nil : crep_assoc h [] [] []
| crep_assoc_cons k op gm t m c cs : crep h op t c → crep_assoc h gm m cs → crep_assoc h ((k, op) :: gm) ((k, t) :: m) (c ++ cs).
Scheme crep_mind := Minimality for crep Sort Prop
  with crep_list_mind := Minimality for crep_list Sort Prop
  with crep_assoc_mind := Minimality for crep_assoc Sort Prop.
Combined Scheme crep_mutind from crep_mind, crep_list_mind, crep_assoc_mind.

Definition same_cell (h h' : heap) (c : loc) : Prop :=
  match c with
  | LArr p => ∀ v, hvals h !! p = Some v → hvals h' !! p = Some v
  | LMap r => ∀ gm, hmaps h !! r = Some gm → hmaps h' !! r = Some gm
  end.
Lemma crep_frame_all h h' :
  (∀ op t cs, crep h op t cs → Forall (same_cell h h') cs → crep h' op t cs) ∧
  (∀ ops ts cs, crep_list h ops ts cs → Forall (same_cell h h') cs → crep_list h' ops ts cs) ∧
  (∀ gm m cs, crep_assoc h gm m cs → Forall (same_cell h h') cs → crep_assoc h' gm m cs).
Proof.
  apply crep_mutind.
  - intros _. apply crep_nil.
  - intros p v t Hv Ht Hc. apply Forall_cons in Hc as [Hp _]. apply (crep_scalar _ p v); [by apply Hp|done].
  - intros p v ops ts cs Hv H1 H2 H3 _ IH Hc. apply Forall_cons in Hc as [Hp Hc]. apply (crep_arr _ p v ops); try done; [by apply Hp|by apply IH].
  - intros p v r gm m cs Hv H1 H2 H3 H4 _ IH Hc. apply Forall_cons in Hc as [Hp Hc]. apply Forall_cons in Hc as [Hm Hc].
    apply (crep_obj _ p v r gm); try done; [by apply Hp|by apply Hm|by apply IH].
  - intros _. apply crep_list_nil.
  - intros op ops t ts c cs _ IH1 _ IH2 Hc. apply Forall_app in Hc as [H1 H2]. apply crep_list_cons; auto.
  - intros _. apply crep_assoc_nil.
  - intros k op gm t m c cs _ IH1 _ IH2 Hc. apply Forall_app in Hc as [H1 H2]. apply crep_assoc_cons; auto.
Qed.
Lemma crep_rep_all h :
  (∀ op t cs, crep h op t cs → ∃ fp, rep h op t fp ∧ fp ⊆+ cs) ∧
  (∀ ops ts cs, crep_list h ops ts cs → ∃ fp, rep_list h ops ts fp ∧ fp ⊆+ cs) ∧
  (∀ gm m cs, crep_assoc h gm m cs → ∃ fp, rep_assoc h gm m fp ∧ fp ⊆+ cs).
Proof.
  apply crep_mutind.
  - exists []. split; [apply rep_nil|done].
  - intros p v t Hv Ht. exists []. split; [by apply (rep_scalar _ p v)|apply submseteq_nil_l].
  - intros p v ops ts cs Hv H1 H2 H3 _ (fp & Hr & Hs). exists (LArr p :: fp). split; [by apply (rep_arr _ p v ops)|by apply submseteq_skip].
  - intros p v r gm m cs Hv H1 H2 H3 H4 _ (fp & Hr & Hs). exists (LMap r :: fp). split; [by apply (rep_obj _ p v r gm)|].
    apply submseteq_cons. by apply submseteq_skip.
  - exists []. split; [apply rep_list_nil|done].
  - intros op ops t ts c cs _ (f1 & R1 & S1) _ (f2 & R2 & S2). exists (f1 ++ f2). split; [by apply rep_list_cons|by apply submseteq_app].
  - exists []. split; [apply rep_assoc_nil|done].
  - intros k op gm t m c cs _ (f1 & R1 & S1) _ (f2 & R2 & S2). exists (f1 ++ f2). split; [by apply rep_assoc_cons|by apply submseteq_app].
Qed.
Lemma crep_assoc_set h k op t c : crep h op t c → ∀ gm m cs, crep_assoc h gm m cs →
  ∃ cs', crep_assoc h (mset k op gm) (mset k t m) cs' ∧ cs' ⊆+ c ++ cs.
Proof.
  intros Hc gm m cs H. induction H as [|k' op' gm t' m c' cs Hc' H (cs1 & IH & S1)].
  - exists (c ++ []). split; [apply crep_assoc_cons; [done|apply crep_assoc_nil]|done].
  - cbn [mset]. destruct (String.compare k k').
    + exists (c ++ cs). split; [by apply crep_assoc_cons|]. apply submseteq_app; [done|]. by apply submseteq_inserts_l.
    + exists (c ++ c' ++ cs). split; [|done]. by do 2 (apply crep_assoc_cons; [done|]).
    + exists (c' ++ cs1). split; [by apply crep_assoc_cons|]. rewrite (assoc_L (++)), (comm (++) c c'), <-(assoc_L (++)).
      by apply submseteq_app.
Qed.
Lemma crep_assoc_fold h kops ts cs : crep_assoc h kops ts cs → ∀ gm m c, crep_assoc h gm m c →
  ∃ c', crep_assoc h (fold_left (λ m kv, mset kv.1 kv.2 m) kops gm) (fold_left (λ m kv, mset kv.1 kv.2 m) ts m) c' ∧ c' ⊆+ c ++ cs.
Proof.
  intros H. induction H as [|k op kops t ts c1 cs Hc H IH]; intros gm m c Hg.
  - exists c. split; [done|]. by rewrite app_nil_r.
  - cbn [fold_left fst snd]. destruct (crep_assoc_set h k op t c1 Hc gm m c Hg) as (c2 & H2 & S2).
    destruct (IH _ _ _ H2) as (c3 & H3 & S3). exists c3. split; [done|]. etrans; [exact S3|].
    rewrite (assoc_L (++)). apply submseteq_app; [|done]. by rewrite (comm (++) c c1).
Qed.

(** *** What is left alone *)
Definition kept (h h' : heap) (P : loc → Prop) : Prop :=
  length (hvals h) ≤ length (hvals h') ∧ length (hmaps h) ≤ length (hmaps h') ∧
  (∀ q v, ¬ P (LArr q) → hvals h !! q = Some v → hvals h' !! q = Some v) ∧
  (∀ r gm, ¬ P (LMap r) → hmaps h !! r = Some gm → hmaps h' !! r = Some gm).
Lemma kept_refl h P : kept h h P.
Proof. done. Qed.
Lemma lookup_not_fresh_val h q v : hvals h !! q = Some v → ¬ fresh h (LArr q).
Proof. intros H%lookup_lt_Some. cbn [fresh]. lia. Qed.
Lemma lookup_not_fresh_map h r gm : hmaps h !! r = Some gm → ¬ fresh h (LMap r).
Proof. intros H%lookup_lt_Some. cbn [fresh]. lia. Qed.
Lemma kept_trans h1 h2 h3 (P Q : loc → Prop) : kept h1 h2 P → kept h2 h3 Q → (∀ c, Q c → P c ∨ fresh h1 c) → kept h1 h3 P.
Proof.
  intros (L1 & M1 & V1 & R1) (L2 & M2 & V2 & R2) HQ. split_and!; [lia|lia| |].
  - intros q v Hq Hv. apply V2; [|by apply V1]. intros Hc. destruct (HQ _ Hc) as [|Hf]; [done|]. by apply (lookup_not_fresh_val _ _ _ Hv).
  - intros r gm Hr Hg. apply R2; [|by apply R1]. intros Hc. destruct (HQ _ Hc) as [|Hf]; [done|]. by apply (lookup_not_fresh_map _ _ _ Hg).
Qed.
Lemma kept_weaken h h' (P Q : loc → Prop) : kept h h' P → (∀ c, P c → Q c) → kept h h' Q.
Proof. intros (L & M & V & R) H. split_and!; [done|done| |]; intros; [apply V|apply R]; auto. Qed.
Lemma kept_fresh h h' P c : kept h h' P → fresh h' c → fresh h c.
Proof. intros (L & M & _). destruct c; cbn [fresh]; lia. Qed.
Lemma kept_same h h' P cs : kept h h' P → Forall (λ c, ¬ P c) cs → Forall (same_cell h h') cs.
Proof.
  intros (_ & _ & V & R) H. apply (Forall_impl _ _ _ H). intros [r|q] Hc; cbn [same_cell]; intros; [by apply R|by apply V].
Qed.
Definition only (p : ptr) (c : loc) : Prop := c = LArr p.

(** The same for the store, with the slots behind the length. *)
Definition in_store (s : vstore) (p : ptr) : Prop := p < length (hvals (vs_heap s)).
Definition left (s s' : vstore) (P : loc → Prop) : Prop :=
  kept (vs_heap s) (vs_heap s') P ∧ ∀ q, in_store s q → ¬ P (LArr q) → vs_spare s' q = vs_spare s q.
Lemma left_refl s P : left s s P. Proof. done. Qed.
Lemma in_store_left s s' P p : left s s' P → in_store s p → in_store s' p.
Proof. intros [(L & _) _] H. unfold in_store in *. lia. Qed.
Lemma left_trans s1 s2 s3 (P Q : loc → Prop) : left s1 s2 P → left s2 s3 Q → (∀ c, Q c → P c ∨ fresh (vs_heap s1) c) → left s1 s3 P.
Proof.
  intros [K1 S1] [K2 S2] HQ. split; [by apply (kept_trans _ (vs_heap s2) _ P Q)|]. intros q Hq Hp.
  rewrite S2; [by apply S1|by apply (in_store_left s1 s2 P)|]. intros Hc. destruct (HQ _ Hc) as [|Hf]; [done|].
  cbn [fresh] in Hf. unfold in_store in Hq. lia.
Qed.
Lemma left_weaken s s' (P Q : loc → Prop) : left s s' P → (∀ c, P c → Q c) → left s s' Q.
Proof. intros [K S] H. split; [by apply (kept_weaken _ _ P)|]. intros q Hq Hp. apply S; auto. Qed.

(** *** Reading and writing the store *)
Lemma load_some s p : in_store s p → hvals (vs_heap s) !! p = Some (load s p).
Proof. intros H. unfold load. destruct (lookup_lt_is_Some_2 _ _ H) as [v E]. by rewrite E. Qed.
Lemma load_of s p v : hvals (vs_heap s) !! p = Some v → load s p = v.
Proof. intros H. unfold load. by rewrite H. Qed.
Lemma kept_set_val h p v : kept h (set_val h p v) (only p).
Proof.
  split_and!; [cbn; by rewrite insert_length|done| |done]. intros q w Hq Hw. cbn [hvals set_val].
  rewrite list_lookup_insert_ne; [done|]. intros ->. by apply Hq.
Qed.
Lemma load_set s p v sp rm : in_store s p → load (mkVS (set_val (vs_heap s) p v) sp rm) p = v.
Proof. intros H. apply load_of. cbn. by apply list_lookup_insert. Qed.
Lemma left_slots s p l sp : left s (set_slots s p l sp) (only p).
Proof. split; [apply kept_set_val|]. intros q _ Hq. cbn. rewrite decide_False; [done|]. intros ->. by apply Hq. Qed.
Lemma load_slots s p l sp : in_store s p → load (set_slots s p l sp) p =
  mkValue (v_int (load s p)) (v_uint (load s p)) (v_float (load s p)) (v_ts (load s p)) (v_str (load s p)) (Some l) (v_obj (load s p)) (v_bool (load s p)) (v_type (load s p)).
Proof. intros H. unfold set_slots. by apply load_set. Qed.
Lemma spare_slots s p l sp : in_store s p → spare_of (set_slots s p l sp) p = sp.
Proof. intros H. unfold spare_of. rewrite load_slots by done. cbn [v_arr set_slots vs_spare]. by rewrite decide_True. Qed.
Lemma elems_slots s p l sp : in_store s p → elems_of (set_slots s p l sp) p = l.
Proof. intros H. unfold elems_of. by rewrite load_slots. Qed.
Lemma load_left s s' P p : left s s' P → in_store s p → ¬ P (LArr p) → load s' p = load s p.
Proof. intros [(_ & _ & V & _) _] H Hp. apply load_of. apply V; [done|]. by apply load_some. Qed.

Lemma left_room s p i : left s (make_room s p i) (only p).
Proof. unfold make_room. destruct (decide _); [apply left_refl|]. destruct (decide _); apply left_slots. Qed.
Lemma left_new s : left s (new_value s).1 (λ _, False).
Proof.
  split; [|done]. split_and!; cbn; [rewrite app_length; lia|done| |done]. intros q v _ Hv. by apply lookup_app_l_Some.
Qed.
Lemma in_store_new s : in_store (new_value s).1 (new_value s).2.
Proof. unfold in_store. cbn. rewrite app_length. cbn. lia. Qed.
Lemma load_new s : load (new_value s).1 (new_value s).2 = zeroValue.
Proof. apply load_of. cbn. by apply list_lookup_middle. Qed.
Lemma left_save s p v : left s (save s p v) (only p).
Proof. split; [apply kept_set_val|done]. Qed.
Lemma load_save s p v : in_store s p → load (save s p v) p = v.
Proof. apply load_set. Qed.
Lemma left_set_type s p ty : left s (set_type s p ty) (only p).
Proof. apply left_save. Qed.
Lemma left_cut s p n : left s (cut s p n) (only p).
Proof. unfold cut. destruct n; [apply left_slots|]. destruct (decide _); [apply left_slots|apply left_refl]. Qed.
Lemma load_type s p ty : in_store s p → load (set_type s p ty) p =
  mkValue (v_int (load s p)) (v_uint (load s p)) (v_float (load s p)) (v_ts (load s p)) (v_str (load s p)) (v_arr (load s p)) (v_obj (load s p)) (v_bool (load s p)) ty.
Proof. intros H. unfold set_type, save. by apply load_set. Qed.

(** *** Decoding into a value without array and object *)
Definition elem_step (f : json → vstore → ptr → vstore * bool) (p : ptr) (i : nat) (j : json) (s : vstore) : vstore * bool :=
  let s1 := make_room s p i in
  match j with
  | JNull => (set_slot s1 p i None, false)
  | _ =>
      match slot s1 p i with
      | Some q => f j s1 q
      | None => let '(s2, q) := new_value s1 in f j (set_slot s2 p i (Some q)) q
      end
  end.
Lemma arr_loop_cons f p j l i s : arr_loop f p (j :: l) i s =
  let '(s2, err) := elem_step f p i j s in if err then (s2, true) else arr_loop f p l (S i) s2.
Proof. done. Qed.
Lemma elem_step_value f p i j s : j ≠ JNull → elem_step f p i j s =
  match slot (make_room s p i) p i with
  | Some q => f j (make_room s p i) q
  | None => f j (set_slot (new_value (make_room s p i)).1 p i (Some (new_value (make_room s p i)).2)) (new_value (make_room s p i)).2
  end.
Proof. by destruct j. Qed.

Definition clean_decode (j : json) : Prop := ∀ s p, in_store s p → v_arr (load s p) = None → v_obj (load s p) = None →
  match top_tree j with
  | Some t => ∃ s' cs, unmarshal j s p = (s', false) ∧ crep (vs_heap s') (Some p) t (LArr p :: cs) ∧ NoDup cs ∧
      Forall (fresh (vs_heap s)) cs ∧ left s s' (only p)
  | None => ∃ s', unmarshal j s p = (s', true) ∧ left s s' (only p)
  end.

Lemma make_room_clean s p i : in_store s p → length (elems_of s p) = i → Forall (λ x, x = None) (spare_of s p) →
  elems_of (make_room s p i) p = elems_of s p ++ [None] ∧ Forall (λ x, x = None) (spare_of (make_room s p i) p) ∧
  v_obj (load (make_room s p i) p) = v_obj (load s p).
Proof.
  intros Hin Hl Hs. unfold make_room. destruct (decide _); [lia|]. destruct (decide _) as [Hd|Hd].
  - rewrite elems_slots, spare_slots, load_slots by done. cbn [v_obj].
    destruct (spare_of s p) as [|x sp]; [rewrite app_nil_r in Hd; lia|]. apply Forall_cons in Hs as [-> Hs].
    rewrite <-Hl. change (None :: sp) with ([None] ++ sp). rewrite (assoc_L (++)).
    replace (S (length (elems_of s p))) with (length (elems_of s p ++ [None])) by (rewrite app_length; cbn; lia).
    rewrite take_app, drop_app. done.
  - set (s' := set_slots s p _ _).
    assert (elems_of s' p = elems_of s p ++ [None]) as E1.
    { unfold s'. rewrite elems_slots by done. rewrite Hl. by replace (S i - i) with 1 by lia. }
    assert (spare_of s' p = replicate (hd 0 (vs_room s)) None) as E2 by (unfold s'; by rewrite spare_slots).
    split_and!.
    + exact E1.
    + change (spare_of (mkVS (vs_heap s') (vs_spare s') (tl (vs_room s'))) p) with (spare_of s' p). rewrite E2. by apply Forall_replicate.
    + change (load (mkVS (vs_heap s') (vs_spare s') (tl (vs_room s'))) p) with (load s' p). unfold s'. by rewrite load_slots.
Qed.
Lemma elem_clean p j i s : clean_decode j → in_store s p → length (elems_of s p) = i → Forall (λ x, x = None) (spare_of s p) →
  match value_of_json j with
  | Some t => ∃ s' op c, elem_step unmarshal p i j s = (s', false) ∧ elems_of s' p = elems_of s p ++ [op] ∧
      v_obj (load s' p) = v_obj (load s p) ∧ Forall (λ x, x = None) (spare_of s' p) ∧
      crep (vs_heap s') op t c ∧ NoDup c ∧ Forall (fresh (vs_heap s)) c ∧ left s s' (only p)
  | None => ∃ s', elem_step unmarshal p i j s = (s', true) ∧ left s s' (only p)
  end.
Proof.
  intros Hj Hin Hl Hs. destruct (make_room_clean s p i Hin Hl Hs) as (E1 & E2 & E3). pose proof (left_room s p i) as K1.
  set (s1 := make_room s p i) in *. assert (in_store s1 p) as Hin1 by (by apply (in_store_left s s1 (only p))).
  assert (j = JNull ∨ j ≠ JNull) as [->|Hn] by (destruct j; (by left) || (by right)).
  { cbn [value_of_json]. exists (set_slot s1 p i None), None, []. unfold set_slot. split_and!; try done.
    - rewrite elems_slots, E1 by done. rewrite <-Hl. rewrite list_insert_id; [done|]. by rewrite list_lookup_middle.
    - by rewrite load_slots.
    - by rewrite spare_slots.
    - apply crep_nil.
    - apply NoDup_nil_2.
    - apply (left_trans _ _ _ _ _ K1 (left_slots _ _ _ _)). by left. }
  rewrite elem_step_value by done. fold s1.
  assert (slot s1 p i = None) as ->. { unfold slot. rewrite E1, <-Hl. by rewrite list_lookup_middle. }
  set (s2 := (new_value s1).1). set (q := (new_value s1).2). pose proof (left_new s1) as K2. fold s2 in K2.
  assert (in_store s2 p) as Hin2 by (by apply (in_store_left s1 s2 (λ _, False))).
  assert (load s2 p = load s1 p) as L2 by (apply (load_left s1 s2 (λ _, False) p K2); [done|by intros []]).
  set (s3 := set_slot s2 p i (Some q)).
  assert (q ≠ p) as Hqp. { intros E. unfold in_store in Hin1. rewrite <-E in Hin1. unfold q in Hin1. cbn in Hin1. lia. }
  assert (left s2 s3 (only p)) as K3 by apply left_slots.
  assert (in_store s3 q) as Hq3. { apply (in_store_left s2 s3 (only p) q K3). apply in_store_new. }
  assert (load s3 q = zeroValue) as Lq. { rewrite (load_left s2 s3 (only p) q K3); [apply load_new|apply in_store_new|]. intros [= E]. done. }
  assert (in_store s3 p) as Hin3 by (by apply (in_store_left s2 s3 (only p))).
  assert (elems_of s3 p = elems_of s p ++ [Some q]) as E4.
  { unfold s3, set_slot. rewrite elems_slots by done. unfold elems_of at 1. rewrite L2. fold (elems_of s1 p). rewrite E1, <-Hl.
    rewrite insert_app_r_alt by done. by rewrite Nat.sub_diag. }
  assert (Forall (λ x, x = None) (spare_of s3 p)) as E5.
  { unfold s3, set_slot. rewrite spare_slots by done. unfold spare_of. rewrite L2. exact E2. }
  assert (v_obj (load s3 p) = v_obj (load s p)) as E6.
  { unfold s3, set_slot. rewrite load_slots by done. cbn [v_obj]. by rewrite L2. }
  assert (left s s3 (only p)) as K03.
  { apply (left_trans _ s1 _ (only p) (only p)); [done| |by left].
    apply (left_trans _ s2 _ (only p) (only p)); [by apply (left_weaken _ _ (λ _, False))|done|by left]. }
  assert (fresh (vs_heap s) (LArr q)) as Fq.
  { apply (kept_fresh _ _ _ _ (proj1 K1)). unfold q. cbn. lia. }
  specialize (Hj s3 q Hq3 ltac:(by rewrite Lq) ltac:(by rewrite Lq)).
  assert (top_tree j = value_of_json j) as Et by (by destruct j). rewrite Et in Hj.
  destruct (value_of_json j) as [t|].
  - destruct Hj as (s' & cs & Hu & Hc & Hnd & Hf & K4). exists s', (Some q), (LArr q :: cs).
    assert (load s' p = load s3 p) as L4. { apply (load_left s3 s' (only q)); [done|done|]. intros [= E]. by apply Hqp. }
    assert (¬ fresh (vs_heap s3) (LArr q)) as Nq. { cbn [fresh]. unfold in_store in Hq3. lia. }
    split_and!.
    + done.
    + unfold elems_of at 1. rewrite L4. exact E4.
    + by rewrite L4.
    + unfold spare_of. rewrite L4. unfold spare_of in E5. destruct (v_arr (load s3 p)) eqn:Ea; [|apply List.Forall_nil].
      rewrite (proj2 K4 p Hin3); [done|]. intros [= E]. by apply Hqp.
    + done.
    + apply NoDup_cons. split; [|done]. intros Hx. rewrite Forall_forall in Hf. by apply Nq, Hf.
    + apply Forall_cons. split; [done|]. apply (Forall_impl _ _ _ Hf). intros c. by apply (kept_fresh _ _ _ _ (proj1 K03)).
    + apply (left_trans _ _ _ _ _ K03 K4). intros c ->. by right.
  - destruct Hj as (s' & Hu & K4). exists s'. split; [done|]. apply (left_trans _ _ _ _ _ K03 K4). intros c ->. by right.
Qed.
Lemma fresh_disjoint h1 h2 P cs cs' : left h1 h2 P → Forall (λ c, ¬ fresh (vs_heap h2) c) cs → Forall (fresh (vs_heap h2)) cs' → ∀ c, c ∈ cs → c ∉ cs'.
Proof. intros _ H1 H2 c Hc Hc'. rewrite Forall_forall in H1. rewrite Forall_forall in H2. by apply (H1 c), H2. Qed.
Lemma crep_allocated_all h :
  (∀ op t cs, crep h op t cs → Forall (λ c, ¬ fresh h c) cs) ∧
  (∀ ops ts cs, crep_list h ops ts cs → Forall (λ c, ¬ fresh h c) cs) ∧
  (∀ gm m cs, crep_assoc h gm m cs → Forall (λ c, ¬ fresh h c) cs).
Proof.
  apply crep_mutind.
  - apply List.Forall_nil.
  - intros p v t Hv _. apply Forall_cons. split; [by apply (lookup_not_fresh_val _ _ _ Hv)|apply List.Forall_nil].
  - intros p v ops ts cs Hv _ _ _ _ IH. apply Forall_cons. split; [by apply (lookup_not_fresh_val _ _ _ Hv)|done].
  - intros p v r gm m cs Hv _ _ Hg _ _ IH. apply Forall_cons. split; [by apply (lookup_not_fresh_val _ _ _ Hv)|].
    apply Forall_cons. split; [by apply (lookup_not_fresh_map _ _ _ Hg)|done].
  - apply List.Forall_nil.
  - intros op ops t ts c cs _ IH1 _ IH2. by apply Forall_app.
  - apply List.Forall_nil.
  - intros k op gm t m c cs _ IH1 _ IH2. by apply Forall_app.
Qed.
Lemma arr_clean p l : Forall clean_decode l → ∀ i s, in_store s p → length (elems_of s p) = i → Forall (λ x, x = None) (spare_of s p) →
  match osequence (map value_of_json l) with
  | Some ts => ∃ s' ops cs, arr_loop unmarshal p l i s = (s', false) ∧ elems_of s' p = elems_of s p ++ ops ∧
      v_obj (load s' p) = v_obj (load s p) ∧
      crep_list (vs_heap s') ops ts cs ∧ NoDup cs ∧ Forall (fresh (vs_heap s)) cs ∧ left s s' (only p)
  | None => ∃ s', arr_loop unmarshal p l i s = (s', true) ∧ left s s' (only p)
  end.
Proof.
  induction 1 as [|j l Hj Hl IH]; intros i s Hin Hi Hs.
  - cbn [map osequence]. exists s, [], []. rewrite app_nil_r. split_and!; try done; [apply crep_list_nil|apply NoDup_nil_2].
  - rewrite arr_loop_cons. cbn [map osequence]. pose proof (elem_clean p j i s Hj Hin Hi Hs) as He.
    destruct (value_of_json j) as [t|].
    2: { destruct He as (s' & -> & K). by exists s'. }
    destruct He as (s1 & op & c & -> & E1 & O1 & S1 & C1 & N1 & F1 & K1).
    assert (in_store s1 p) as Hin1 by (by apply (in_store_left s s1 (only p))).
    specialize (IH (S i) s1 Hin1 ltac:(rewrite E1, app_length; cbn; lia) S1).
    destruct (osequence (map value_of_json l)) as [ts|].
    2: { destruct IH as (s' & E & K). exists s'. split; [done|]. apply (left_trans _ _ _ _ _ K1 K). by left. }
    destruct IH as (s' & ops & cs & E & E2 & O2 & C2 & N2 & F2 & K2).
    exists s', (op :: ops), (c ++ cs). split_and!.
    + done.
    + rewrite E2, E1, <-(assoc_L (++)). done.
    + congruence.
    + apply crep_list_cons; [|done]. apply (proj1 (crep_frame_all (vs_heap s1) (vs_heap s'))); [done|].
      apply (kept_same _ _ _ _ (proj1 K2)). apply (Forall_impl _ _ _ F1). intros x Hx ->. unfold fresh, in_store in *. lia.
    + apply NoDup_app. split_and!; [done| |done]. apply (fresh_disjoint s s1 (only p)); [done| |done].
      by apply (proj1 (crep_allocated_all (vs_heap s1)) op t).
    + apply Forall_app. split; [done|]. apply (Forall_impl _ _ _ F2). intros x. by apply (kept_fresh _ _ _ _ (proj1 K1)).
    + apply (left_trans _ _ _ _ _ K1 K2). by left.
Qed.

Definition entry_step (f : json → vstore → ptr → vstore * bool) (j : json) (s : vstore) : vstore * option ptr * bool :=
  match j with
  | JNull => (s, None, false)
  | _ => let '(s1, q) := new_value s in let '(s2, err) := f j s1 q in (s2, Some q, err)
  end.
Definition map_put (s : vstore) (r : mref) (k : string) (op : option ptr) : vstore :=
  mkVS (mkHeap (hvals (vs_heap s)) (<[r := mset k op (map_of (vs_heap s) (Some r))]> (hmaps (vs_heap s)))) (vs_spare s) (vs_room s).
Lemma obj_loop_cons f r k j m s : obj_loop f r ((k, j) :: m) s =
  let '(s2, op, err) := entry_step f j s in if err : bool then (s2, true) else obj_loop f r m (map_put s2 r k op).
Proof. done. Qed.
Lemma left_map_put s r k op : left s (map_put s r k op) (λ c, c = LMap r).
Proof.
  split; [|done]. split_and!; [done|cbn; by rewrite insert_length|done|]. intros r' gm Hr Hg. cbn.
  rewrite list_lookup_insert_ne; [done|]. intros ->. by apply Hr.
Qed.
Lemma entry_clean j s : clean_decode j →
  match value_of_json j with
  | Some t => ∃ s' op c, entry_step unmarshal j s = (s', op, false) ∧ crep (vs_heap s') op t c ∧ NoDup c ∧
      Forall (fresh (vs_heap s)) c ∧ left s s' (λ _, False)
  | None => ∃ s' op, entry_step unmarshal j s = (s', op, true) ∧ left s s' (λ _, False)
  end.
Proof.
  intros Hj. assert (j = JNull ∨ j ≠ JNull) as [->|Hn] by (destruct j; (by left) || (by right)).
  { cbn [value_of_json]. exists s, None, []. split_and!; try done; [apply crep_nil|apply NoDup_nil_2]. }
  assert (entry_step unmarshal j s = (let '(s2, err) := unmarshal j (new_value s).1 (new_value s).2 in (s2, Some (new_value s).2, err))) as ->
    by (by destruct j).
  pose proof (left_new s) as K1. set (s1 := (new_value s).1) in *. set (q := (new_value s).2).
  assert (fresh (vs_heap s) (LArr q)) as Fq by (unfold q; cbn; lia).
  specialize (Hj s1 q (in_store_new s) ltac:(unfold s1, q; by rewrite load_new) ltac:(unfold s1, q; by rewrite load_new)).
  assert (top_tree j = value_of_json j) as Et by (by destruct j). rewrite Et in Hj.
  assert (∀ s', left s1 s' (only q) → left s s' (λ _, False)) as K.
  { intros s' K2. apply (left_trans _ _ _ _ _ K1 K2). intros c ->. by right. }
  destruct (value_of_json j) as [t|].
  - destruct Hj as (s' & cs & Hu & Hc & Hnd & Hf & K2). exists s', (Some q), (LArr q :: cs). rewrite Hu.
    assert (¬ fresh (vs_heap s1) (LArr q)) as Nq. { pose proof (in_store_new s) as Hq. fold s1 q in Hq. unfold in_store in Hq. cbn [fresh]. lia. }
    split_and!; try done.
    + apply NoDup_cons. split; [|done]. intros Hx. rewrite Forall_forall in Hf. by apply Nq, Hf.
    + apply Forall_cons. split; [done|]. apply (Forall_impl _ _ _ Hf). intros c. by apply (kept_fresh _ _ _ _ (proj1 K1)).
    + by apply K.
  - destruct Hj as (s' & Hu & K2). exists s', (Some q). rewrite Hu. split; [done|by apply K].
Qed.
(** [kops]: the entries stored, in the order of the text. *)
Lemma obj_clean r m : Forall (λ kv : string * json, clean_decode kv.2) m → ∀ s gm, hmaps (vs_heap s) !! r = Some gm →
  match fields_of_json m with
  | Some ts => ∃ s' kops cs, obj_loop unmarshal r m s = (s', false) ∧
      hmaps (vs_heap s') !! r = Some (fold_left (λ m kv, mset kv.1 kv.2 m) kops gm) ∧
      crep_assoc (vs_heap s') kops ts cs ∧ NoDup cs ∧ Forall (fresh (vs_heap s)) cs ∧ left s s' (λ c, c = LMap r)
  | None => ∃ s', obj_loop unmarshal r m s = (s', true) ∧ left s s' (λ c, c = LMap r)
  end.
Proof.
  induction 1 as [|[k j] m Hj Hm IH]; intros s gm Hg.
  - cbn [fields_of_json map osequence]. exists s, [], []. split_and!; try done; [apply crep_assoc_nil|apply NoDup_nil_2].
  - unfold fields_of_json in *. rewrite obj_loop_cons. cbn [map osequence]. cbn [snd] in Hj. pose proof (entry_clean j s Hj) as He.
    destruct (value_of_json j) as [t|].
    2: { destruct He as (s' & op & -> & K). exists s'. split; [done|]. by apply (left_weaken _ _ (λ _, False)). }
    destruct He as (s1 & op & c & -> & C1 & N1 & F1 & K1).
    pose proof (left_map_put s1 r k op) as K2. set (s2 := map_put s1 r k op) in *.
    assert (left s s2 (λ c, c = LMap r)) as K02.
    { apply (left_trans _ s1 _ _ (λ c, c = LMap r)); [by apply (left_weaken _ _ (λ _, False))|done|by left]. }
    assert (hmaps (vs_heap s1) !! r = Some gm) as Hg1. { apply (proj1 K1); [by intros []|done]. }
    assert (hmaps (vs_heap s2) !! r = Some (mset k op gm)) as Hg2.
    { unfold s2. cbn. rewrite Hg1. apply list_lookup_insert. by apply lookup_lt_Some in Hg1. }
    specialize (IH s2 _ Hg2).
    destruct (osequence (map _ m)) as [ts|].
    2: { destruct IH as (s' & E & K). exists s'. split; [done|]. apply (left_trans _ _ _ _ _ K02 K). by left. }
    destruct IH as (s' & kops & cs & E & E2 & C2 & N2 & F2 & K3).
    assert (crep (vs_heap s2) op t c) as C1'.
    { apply (proj1 (crep_frame_all (vs_heap s1) (vs_heap s2))); [done|]. apply (kept_same _ _ _ _ (proj1 K2)).
      apply (Forall_impl _ _ _ F1). intros x Hx ->. apply (lookup_not_fresh_map _ _ _ Hg Hx). }
    exists s', ((k, op) :: kops), (c ++ cs). split_and!.
    + done.
    + by rewrite E2.
    + apply crep_assoc_cons; [|done]. apply (proj1 (crep_frame_all (vs_heap s2) (vs_heap s'))); [done|].
      apply (kept_same _ _ _ _ (proj1 K3)). apply (Forall_impl _ _ _ F1). intros x Hx ->. apply (lookup_not_fresh_map _ _ _ Hg Hx).
    + apply NoDup_app. split_and!; [done| |done]. apply (fresh_disjoint s s2 (λ c, c = LMap r)); [done| |done].
      by apply (proj1 (crep_allocated_all (vs_heap s2)) op t).
    + apply Forall_app. split; [done|]. apply (Forall_impl _ _ _ F2). intros x. by apply (kept_fresh _ _ _ _ (proj1 K02)).
    + apply (left_trans _ _ _ _ _ K02 K3). by left.
Qed.
Lemma NoDup_sub {A} (l k : list A) : l ⊆+ k → NoDup k → NoDup l.
Proof. intros (k' & E)%submseteq_Permutation H. rewrite E in H. by apply NoDup_app in H as [H _]. Qed.
Definition own_obj (s : vstore) (p : ptr) (c : loc) : Prop := c = LArr p ∨ ∃ r, v_obj (load s p) = Some r ∧ c = LMap r.
Lemma obj_decode m s p gm : Forall (λ kv : string * json, clean_decode kv.2) m → in_store s p →
  match v_obj (load s p) with Some r => hmaps (vs_heap s) !! r = Some gm | None => gm = [] end →
  match fields_of_json m with
  | Some ts => ∃ s' r kops cs, unmarshal (JObj m) s p = (s', false) ∧
      hvals (vs_heap s') !! p = Some (mkValue (v_int (load s p)) (v_uint (load s p)) (v_float (load s p)) (v_ts (load s p)) (v_str (load s p)) (v_arr (load s p)) (Some r) (v_bool (load s p)) ObjectType) ∧
      match v_obj (load s p) with Some r0 => r = r0 | None => fresh (vs_heap s) (LMap r) end ∧
      hmaps (vs_heap s') !! r = Some (fold_left (λ m kv, mset kv.1 kv.2 m) kops gm) ∧
      crep_assoc (vs_heap s') kops ts cs ∧ NoDup (LMap r :: cs) ∧ Forall (fresh (vs_heap s)) cs ∧ left s s' (own_obj s p)
  | None => ∃ s', unmarshal (JObj m) s p = (s', true) ∧ left s s' (own_obj s p)
  end.
Proof.
  intros Hm Hin Hg.
  assert (∃ s0 r, unmarshal (JObj m) s p = (let '(s1, err) := obj_loop unmarshal r m s0 in
            if err then (s1, true) else (set_type s1 p ObjectType, false)) ∧
     hmaps (vs_heap s0) !! r = Some gm ∧
     load s0 p = mkValue (v_int (load s p)) (v_uint (load s p)) (v_float (load s p)) (v_ts (load s p)) (v_str (load s p)) (v_arr (load s p)) (Some r) (v_bool (load s p)) (v_type (load s p)) ∧
     match v_obj (load s p) with Some r0 => r = r0 | None => fresh (vs_heap s) (LMap r) end ∧ left s s0 (own_obj s p)) as (s0 & r & Hu & Hg0 & L0 & Hr & K0).
  { destruct (v_obj (load s p)) as [r|] eqn:Eo.
    - exists s, r. split_and!; [|done| |done|apply left_refl].
      + cbn [unmarshal]. by rewrite Eo.
      + destruct (load s p); cbn in *. by rewrite Eo.
    - subst gm. eexists _, _. split_and!; [| | | |].
      + cbn [unmarshal]. rewrite Eo. reflexivity.
      + cbn. by apply list_lookup_middle.
      + apply load_of. cbn. by apply list_lookup_insert.
      + cbn. lia.
      + split; [|done]. split_and!; cbn.
        * by rewrite insert_length.
        * rewrite app_length. lia.
        * intros q v Hq Hv. rewrite list_lookup_insert_ne; [done|]. intros ->. apply Hq. by left.
        * intros r gm _ Hr. by apply lookup_app_l_Some. }
  rewrite Hu. clear Hu.
  assert (in_store s0 p) as Hin0 by (by apply (in_store_left s s0 (own_obj s p))).
  pose proof (obj_clean r m Hm s0 gm Hg0) as Hl.
  assert (∀ s', left s0 s' (λ c, c = LMap r) → left s s' (own_obj s p)) as Kt.
  { intros s' K. apply (left_trans _ _ _ _ _ K0 K). intros c ->. destruct (v_obj (load s p)) as [r0|] eqn:Eo; [|by right].
    left. right. subst r0. by exists r. }
  destruct (fields_of_json m) as [ts|].
  - destruct Hl as (s' & kops & cs & -> & E2 & C2 & N2 & F2 & K2).
    pose proof (left_set_type s' p ObjectType) as K3. set (s3 := set_type s' p ObjectType) in *.
    assert (in_store s' p) as Hin' by (by apply (in_store_left s0 s' (λ c, c = LMap r))).
    assert (load s' p = load s0 p) as L'. { by apply (load_left s0 s' (λ c, c = LMap r)). }
    assert (Forall (fresh (vs_heap s)) cs) as F2'. { apply (Forall_impl _ _ _ F2). intros x. by apply (kept_fresh _ _ _ _ (proj1 K0)). }
    exists s3, r, kops, cs. split_and!; try done.
    + rewrite load_some by (by apply (in_store_left s' s3 (only p))). unfold s3. rewrite load_type, L', L0 by done. done.
    + apply (proj2 (proj2 (crep_frame_all (vs_heap s') (vs_heap s3)))); [done|].
      apply (kept_same _ _ _ _ (proj1 K3)). apply (Forall_impl _ _ _ F2). intros x Hx ->. unfold fresh, in_store in *. lia.
    + apply NoDup_cons. split; [|done]. intros Hx. rewrite Forall_forall in F2. by apply (lookup_not_fresh_map _ _ _ Hg0), F2.
    + apply (left_trans _ _ _ _ _ (Kt _ K2) K3). intros c ->. left. by left.
  - destruct Hl as (s' & -> & K). exists s'. split; [done|by apply Kt].
Qed.
Lemma clean_decode_all j : clean_decode j.
Proof.
  induction j as [|b|neg m e|x|l IH|m IH] using json_ind'; intros s p Hin Ha Ho; pose proof (load_some s p Hin) as Hv.
  - cbn [top_tree]. exists (set_type s p NullType), []. split_and!; [done| |apply NoDup_nil_2|done|apply left_set_type].
    eapply crep_scalar; [apply load_some; by apply (in_store_left s _ (only p) p (left_set_type s p NullType))|]. rewrite load_type by done.
    unfold scalar_tree. cbn. by rewrite Ho.
  - cbn [top_tree value_of_json unmarshal]. eexists _, []. split_and!; [reflexivity| |apply NoDup_nil_2|done|apply left_save].
    eapply crep_scalar; [apply load_some; eapply (in_store_left s _ (only p) p); [apply left_save|done]|]. rewrite load_save by done.
    unfold scalar_tree. cbn. by rewrite Ho.
  - cbn [top_tree value_of_json unmarshal]. destruct (f64_of_dec neg m e) as [b|]; [|exists s; split; [done|apply left_refl]].
    eexists _, []. split_and!; [reflexivity| |apply NoDup_nil_2|done|apply left_save].
    eapply crep_scalar; [apply load_some; eapply (in_store_left s _ (only p) p); [apply left_save|done]|]. rewrite load_save by done.
    unfold scalar_tree. cbn. by rewrite Ho.
  - cbn [top_tree value_of_json unmarshal]. eexists _, []. split_and!; [reflexivity| |apply NoDup_nil_2|done|apply left_save].
    eapply crep_scalar; [apply load_some; eapply (in_store_left s _ (only p) p); [apply left_save|done]|]. rewrite load_save by done.
    unfold scalar_tree. cbn. by rewrite Ho.
  - cbn [top_tree value_of_json]. assert (elems_of s p = []) as E0 by (unfold elems_of; by rewrite Ha).
    assert (spare_of s p = []) as S0 by (unfold spare_of; by rewrite Ha).
    pose proof (arr_clean p l IH 0 s Hin ltac:(by rewrite E0) ltac:(rewrite S0; apply List.Forall_nil)) as H.
    change (unmarshal (JArr l) s p) with (let '(s1, err) := arr_loop unmarshal p l 0 s in
      if err then (s1, true) else (set_type (cut s1 p (length l)) p ArrayType, false)).
    destruct (osequence (map value_of_json l)) as [ts|] eqn:Es.
    2: { destruct H as (s' & -> & K). by exists s'. }
    destruct H as (s1 & ops & cs & -> & E1 & O1 & C1 & N1 & F1 & K1). rewrite E0 in E1. cbn [app] in E1.
    assert (in_store s1 p) as Hin1 by (by apply (in_store_left s s1 (only p))).
    assert (length ops = length l) as Hlen.
    { assert (∀ ops ts cs, crep_list (vs_heap s1) ops ts cs → length ops = length ts) as Hx.
      { intros ? ? ?. induction 1; [done|]. cbn. lia. }
      rewrite (Hx _ _ _ C1). apply osequence_Forall2 in Es. apply (f_equal length) in Es. rewrite !map_length in Es. done. }
    set (s2 := cut s1 p (length l)).
    assert (left s1 s2 (only p)) as K2 by apply left_cut.
    assert (v_arr (load s2 p) = Some ops ∧ v_obj (load s2 p) = None) as [A2 O2].
    { unfold s2, cut. destruct l as [|j l].
      - cbn [length]. rewrite load_slots by done. cbn. split; [|congruence]. f_equal. destruct ops; [done|discriminate].
      - rewrite E1, Hlen. cbn [length]. destruct (decide _); [lia|]. split; [|congruence]. unfold elems_of in E1.
        destruct (v_arr (load s1 p)) as [a|]; cbn in E1; [by subst a|]. subst ops. discriminate. }
    assert (in_store s2 p) as Hin2 by (by apply (in_store_left s1 s2 (only p))).
    pose proof (left_set_type s2 p ArrayType) as K3. set (s3 := set_type s2 p ArrayType) in *.
    assert (left s1 s3 (only p)) as K13 by (apply (left_trans _ _ _ _ _ K2 K3); by left).
    exists s3, cs. split_and!; try done.
    + eapply (crep_arr _ p _ ops); [apply load_some; by apply (in_store_left s2 s3 (only p))|..];
        try (unfold s3; rewrite load_type by done; done).
      apply (proj1 (proj2 (crep_frame_all (vs_heap s1) (vs_heap s3)))); [done|].
      apply (kept_same _ _ _ _ (proj1 K13)). apply (Forall_impl _ _ _ F1). intros x Hx ->. unfold fresh, in_store in *. lia.
    + apply (left_trans _ _ _ _ _ K1 K13). by left.
  - pose proof (obj_decode m s p [] IH Hin) as H. rewrite Ho in H. specialize (H eq_refl).
    assert (top_tree (JObj m) = match fields_of_json m with Some ts => Some (TObj (mof_list ts)) | None => None end) as -> by done.
    assert (∀ s', left s s' (own_obj s p) → left s s' (only p)) as Kt.
    { intros s' K. apply (left_weaken _ _ _ _ K). intros c [->|(r & E & _)]; [done|]. congruence. }
    destruct (fields_of_json m) as [ts|].
    2: { destruct H as (s' & -> & K). exists s'. split; [done|by apply Kt]. }
    destruct H as (s' & r & kops & cs & -> & Hv' & Hr & Hg & Hc & Hnd & Hf & K).
    destruct (crep_assoc_fold _ _ _ _ Hc [] [] [] (crep_assoc_nil _)) as (cs' & Hc' & Hs'). cbn [app] in Hs'.
    exists s', (LMap r :: cs'). split_and!.
    + done.
    + eapply (crep_obj _ p _ r); [exact Hv'|done|done|exact Hg|apply msorted_fold_mset; done|exact Hc'].
    + apply (NoDup_sub _ (LMap r :: cs)); [by apply submseteq_skip|done].
    + apply Forall_cons. split; [done|]. rewrite Forall_forall in *. intros x Hx. apply Hf. by apply (elem_of_submseteq cs' cs).
    + by apply Kt.
Qed.

(** ** Decoding over an object *)
(** The Object field of value [p] shows the entries [m], whatever the value's type. *)
Definition obj_field (h : heap) (p : ptr) (m : list (string * tree)) (fp : list loc) : Prop :=
  ∃ v r gm fp', hvals h !! p = Some v ∧ v_obj v = Some r ∧ hmaps h !! r = Some gm ∧ msorted gm ∧ rep_assoc h gm m fp' ∧ fp = LMap r :: fp'.

(** Only value [p] and its map [r] change: what does not use the map is unaffected. *)
Lemma rep_beside_all h h' p vp r : hvals h !! p = Some vp → v_obj vp = Some r →
  (∀ q v, q ≠ p → hvals h !! q = Some v → hvals h' !! q = Some v) →
  (∀ r' gm, r' ≠ r → hmaps h !! r' = Some gm → hmaps h' !! r' = Some gm) →
  (∀ op t fp, rep h op t fp → LMap r ∉ fp → rep h' op t fp) ∧
  (∀ ops ts fp, rep_list h ops ts fp → LMap r ∉ fp → rep_list h' ops ts fp) ∧
  (∀ gm m fp, rep_assoc h gm m fp → LMap r ∉ fp → rep_assoc h' gm m fp).
Proof.
  intros Hp Hr HV HM.
  assert (∀ q v, hvals h !! q = Some v → v_obj v = None → hvals h' !! q = Some v) as HN.
  { intros q v Hq Ho. apply HV; [|done]. intros ->. congruence. }
  apply rep_mutind.
  - intros _. apply rep_nil.
  - intros q v t Hq Ht _. apply (rep_scalar _ q v); [|done]. apply HN; [done|]. by apply scalar_tree_obj in Ht.
  - intros q v Hq H1 H2 H3 _. apply (rep_nilarr _ q v); auto.
  - intros q v ops ts fps Hq H1 H2 H3 _ IH Hn. apply (rep_arr _ q v ops); auto. apply IH. intros Hx. apply Hn. by right.
  - intros q v Hq H1 H2 _. apply (rep_nilobj _ q v); auto.
  - intros q v r' gm m fps Hq H1 H2 H3 H4 _ IH Hn. assert (r' ≠ r) as Hne. { intros ->. apply Hn. by left. }
    apply (rep_obj _ q v r' gm); auto.
    + apply HV; [|done]. intros ->. congruence.
    + apply IH. intros Hx. apply Hn. by right.
  - intros _. apply rep_list_nil.
  - intros op ops t ts fp fps _ IH1 _ IH2 Hn. apply rep_list_cons; [apply IH1|apply IH2]; intros Hx; apply Hn, elem_of_app; auto.
  - intros _. apply rep_assoc_nil.
  - intros k op gm t m fp fps _ IH1 _ IH2 Hn. apply rep_assoc_cons; [apply IH1|apply IH2]; intros Hx; apply Hn, elem_of_app; auto.
Qed.
Lemma rep_assoc_set h k op t c : rep h op t c → ∀ gm m cs, rep_assoc h gm m cs →
  ∃ cs', rep_assoc h (mset k op gm) (mset k t m) cs' ∧ cs' ⊆+ c ++ cs.
Proof.
  intros Hc gm m cs H. induction H as [|k' op' gm t' m c' cs Hc' H (cs1 & IH & S1)].
  - exists (c ++ []). split; [apply rep_assoc_cons; [done|apply rep_assoc_nil]|done].
  - cbn [mset]. destruct (String.compare k k').
    + exists (c ++ cs). split; [by apply rep_assoc_cons|]. apply submseteq_app; [done|]. by apply submseteq_inserts_l.
    + exists (c ++ c' ++ cs). split; [|done]. by do 2 (apply rep_assoc_cons; [done|]).
    + exists (c' ++ cs1). split; [by apply rep_assoc_cons|]. rewrite (assoc_L (++)), (comm (++) c c'), <-(assoc_L (++)).
      by apply submseteq_app.
Qed.
Lemma rep_assoc_fold h kops ts cs : rep_assoc h kops ts cs → ∀ gm m c, rep_assoc h gm m c →
  ∃ c', rep_assoc h (fold_left (λ m kv, mset kv.1 kv.2 m) kops gm) (fold_left (λ m kv, mset kv.1 kv.2 m) ts m) c' ∧ c' ⊆+ c ++ cs.
Proof.
  intros H. induction H as [|k op kops t ts c1 cs Hc H IH]; intros gm m c Hg.
  - exists c. split; [done|]. by rewrite app_nil_r.
  - cbn [fold_left fst snd]. destruct (rep_assoc_set h k op t c1 Hc gm m c Hg) as (c2 & H2 & S2).
    destruct (IH _ _ _ H2) as (c3 & H3 & S3). exists c3. split; [done|]. etrans; [exact S3|].
    rewrite (assoc_L (++)). apply submseteq_app; [|done]. by rewrite (comm (++) c c1).
Qed.
(** An object text over an Object field: its entries replace or join those there. *)
Lemma obj_over m ts s p m0 fp : fields_of_json m = Some ts → obj_field (vs_heap s) p m0 fp → NoDup fp →
  ∃ s' fp', unmarshal (JObj m) s p = (s', false) ∧ obj_field (vs_heap s') p (fold_left (λ m kv, mset kv.1 kv.2 m) ts m0) fp' ∧ NoDup fp' ∧
    v_type (load s' p) = ObjectType ∧ v_obj (load s' p) = v_obj (load s p) ∧ left s s' (own_obj s p).
Proof.
  intros Hts (v & r & gm & fp0 & Hv & Hr & Hg & Hs & Ha & ->) Hnd.
  assert (in_store s p) as Hin. { unfold in_store. by apply lookup_lt_Some in Hv. }
  pose proof (load_of s p v Hv) as Lv.
  pose proof (obj_decode m s p gm ltac:(apply Forall_forall; intros; apply clean_decode_all) Hin ltac:(rewrite Lv, Hr; exact Hg)) as H.
  rewrite Hts, Lv, Hr in H. destruct H as (s' & r' & kops & cs & Hu & Hv' & -> & Hg' & Hc & Nc & Fc & K).
  destruct (proj2 (proj2 (crep_rep_all (vs_heap s'))) _ _ _ Hc) as (f1 & Hr1 & S1).
  apply NoDup_cons in Hnd as [Hn0 Hnd0]. apply NoDup_cons in Nc as [Hnr Nc].
  assert (rep_assoc (vs_heap s') gm m0 fp0) as Ha'.
  { destruct K as [(_ & _ & KV & KM) _].
    apply (proj2 (proj2 (rep_beside_all (vs_heap s) (vs_heap s') p v r Hv Hr
      ltac:(intros q w Hq Hw; apply KV; [|done]; intros [[= ->]|(? & ? & [=])]; done)
      ltac:(intros q w Hq Hw; apply KM; [|done]; intros [[=]|(r1 & E & [= ->])]; congruence)))); [done|done]. }
  destruct (rep_assoc_fold (vs_heap s') kops ts f1 Hr1 gm m0 fp0 Ha') as (f2 & Hr2 & S2).
  exists s', (LMap r :: f2). split_and!.
  - done.
  - eexists _, r, _, f2. split_and!; [exact Hv'|done|exact Hg'|by apply msorted_fold_mset|done|done].
  - apply (NoDup_sub _ (LMap r :: fp0 ++ cs)).
    + apply submseteq_skip. etrans; [exact S2|]. by apply submseteq_app.
    + apply NoDup_cons. split.
      * rewrite elem_of_app. intros [?|?]; [done|]. rewrite Forall_forall in Fc. by apply (lookup_not_fresh_map _ _ _ Hg), Fc.
      * apply NoDup_app. split_and!; [done| |done]. intros c Hc1 Hc2. rewrite Forall_forall in Fc. specialize (Fc c Hc2).
        pose proof (proj2 (proj2 (rep_alloc_all (vs_heap s))) _ _ _ Ha c Hc1) as Hal. destruct c; cbn [fresh allocated] in *; lia.
  - by rewrite (load_of s' p _ Hv').
  - rewrite (load_of s' p _ Hv'), Lv. by rewrite Hr.
  - by rewrite <-Lv in *.
Qed.
(** A text that is neither an object nor an array leaves the Object field as it is. *)
Definition plain (j : json) : Prop := match j with JArr _ | JObj _ => False | _ => True end.
Lemma plain_over j t s p m0 fp : plain j → top_tree j = Some t → obj_field (vs_heap s) p m0 fp → NoDup fp →
  ∃ s', unmarshal j s p = (s', false) ∧ obj_field (vs_heap s') p m0 fp ∧ v_type (load s' p) ≠ ObjectType ∧
    v_obj (load s' p) = v_obj (load s p) ∧ left s s' (only p).
Proof.
  intros Hp Ht (v & r & gm & fp0 & Hv & Hr & Hg & Hs & Ha & ->) Hnd.
  assert (in_store s p) as Hin. { unfold in_store. by apply lookup_lt_Some in Hv. }
  pose proof (load_of s p v Hv) as Lv. apply NoDup_cons in Hnd as [Hn0 _].
  assert (∃ v', unmarshal j s p = (save s p v', false) ∧ v_obj v' = Some r ∧ v_type v' ≠ ObjectType) as (v' & Hu & Hr' & Hty).
  { destruct j; try done; cbn [unmarshal].
    - unfold set_type. rewrite Lv. by eexists.
    - rewrite Lv. by eexists.
    - cbn [top_tree value_of_json] in Ht. destruct (f64_of_dec _ _ _); [|done]. rewrite Lv. by eexists.
    - rewrite Lv. by eexists. }
  pose proof (left_save s p v') as K. exists (save s p v'). rewrite load_save by done. split_and!; [done| |done|congruence|done].
  exists v', r, gm, fp0. split_and!; try done.
  - apply list_lookup_insert. exact Hin.
  - destruct K as [(_ & _ & KV & KM) _].
    apply (proj2 (proj2 (rep_beside_all (vs_heap s) (vs_heap (save s p v')) p v r Hv Hr
      ltac:(intros q w Hq Hw; apply KV; [|done]; intros [= ->]; done)
      ltac:(intros q w Hq Hw; apply KM; [|done]; intros [=])))); done.
Qed.

(** ** What decoding can change *)
(** [C] contains, with a value, the values its slots point to, also those behind the length. *)
Definition closed (s : vstore) (C : ptr → Prop) : Prop :=
  ∀ q, C q → in_store s q ∧ ∀ q', Some q' ∈ elems_of s q ++ spare_of s q → C q'.
(** The values in [C] and their maps. *)
Definition touched (s : vstore) (C : ptr → Prop) (c : loc) : Prop :=
  match c with LArr q => C q | LMap r => ∃ q, C q ∧ v_obj (load s q) = Some r end.
Definition step (s : vstore) (C : ptr → Prop) (s' : vstore) (C' : ptr → Prop) : Prop :=
  left s s' (touched s C) ∧ closed s' C' ∧ (∀ q, C q → C' q) ∧ (∀ q, C' q → C q ∨ fresh (vs_heap s) (LArr q)) ∧
  (∀ q r, C' q → v_obj (load s' q) = Some r → touched s C (LMap r) ∨ fresh (vs_heap s) (LMap r)).
Lemma step_refl s C : closed s C → step s C s C.
Proof. intros H. split_and!; [apply left_refl|done|done|by left|]. intros q r Hq Hr. left. by exists q. Qed.
Lemma step_trans s1 C1 s2 C2 s3 C3 : step s1 C1 s2 C2 → step s2 C2 s3 C3 → step s1 C1 s3 C3.
Proof.
  intros (K1 & D1 & U1 & F1 & O1) (K2 & D2 & U2 & F2 & O2). split_and!.
  - apply (left_trans _ _ _ _ _ K1 K2). intros [r|q]; cbn [touched].
    + intros (q & Hq & Hr). exact (O1 q r Hq Hr).
    + exact (F1 q).
  - done.
  - auto.
  - intros q Hq. destruct (F2 q Hq) as [H|H]; [by apply F1|]. right. exact (kept_fresh _ _ _ _ (proj1 K1) H).
  - intros q r Hq Hr. destruct (O2 q r Hq Hr) as [(q2 & H2 & Hr2)|H]; [exact (O1 q2 r H2 Hr2)|]. right. exact (kept_fresh _ _ _ _ (proj1 K1) H).
Qed.
Lemma slots_left s s' P q : left s s' P → in_store s q → ¬ P (LArr q) → load s' q = load s q ∧ elems_of s' q = elems_of s q ∧ spare_of s' q = spare_of s q.
Proof.
  intros K Hin Hn. pose proof (load_left _ _ _ _ K Hin Hn) as E. unfold elems_of, spare_of. rewrite E.
  split_and!; [done|done|]. by rewrite (proj2 K q Hin Hn).
Qed.
Lemma step_only s C s' p : closed s C → C p → left s s' (only p) →
  (∀ q', Some q' ∈ elems_of s' p ++ spare_of s' p → C q') →
  (∀ r, v_obj (load s' p) = Some r → touched s C (LMap r) ∨ fresh (vs_heap s) (LMap r)) → step s C s' C.
Proof.
  intros D Hp K Hs Ho. split_and!.
  - apply (left_weaken _ _ _ _ K). intros c ->. exact Hp.
  - intros q Hq. destruct (D q Hq) as [Hin Hsl]. split; [exact (in_store_left _ _ _ _ K Hin)|].
    destruct (decide (q = p)) as [->|Hne]; [exact Hs|].
    destruct (slots_left _ _ _ q K Hin ltac:(intros [= E0]; done)) as (_ & -> & ->). exact Hsl.
  - done.
  - by left.
  - intros q r Hq Hr. destruct (decide (q = p)) as [->|Hne]; [by apply Ho|].
    rewrite (load_left _ _ _ _ K (proj1 (D q Hq)) ltac:(intros [= E0]; done)) in Hr. left. by exists q.
Qed.
Lemma step_new s C : closed s C → step s C (new_value s).1 (λ q, C q ∨ q = (new_value s).2).
Proof.
  intros D. pose proof (left_new s) as K. set (s1 := (new_value s).1) in *. set (n := (new_value s).2).
  assert (load s1 n = zeroValue) as Ln by apply load_new.
  assert (∀ q, C q → load s1 q = load s q ∧ elems_of s1 q = elems_of s q ∧ spare_of s1 q = spare_of s q) as E.
  { intros q Hq. apply (slots_left _ _ _ q K); [exact (proj1 (D q Hq))|by intros []]. }
  split_and!.
  - by apply (left_weaken _ _ (λ _, False)).
  - intros q [Hq| ->].
    + destruct (D q Hq) as [Hin Hs]. split; [exact (in_store_left _ _ _ _ K Hin)|].
      destruct (E q Hq) as (_ & -> & ->). intros q' Hq'. left. by apply Hs.
    + split; [apply in_store_new|]. unfold elems_of, spare_of. rewrite Ln. cbn. intros q' H. by apply elem_of_nil in H.
  - by left.
  - intros q [Hq| ->]; [by left|]. right. unfold n. cbn. lia.
  - intros q r [Hq| ->] Hr.
    + rewrite (proj1 (E q Hq)) in Hr. left. by exists q.
    + rewrite Ln in Hr. done.
Qed.
Lemma step_map s C s' p r : closed s C → C p → v_obj (load s p) = Some r → left s s' (λ c, c = LMap r) → step s C s' C.
Proof.
  intros D Hp Hr K.
  assert (∀ q, C q → load s' q = load s q ∧ elems_of s' q = elems_of s q ∧ spare_of s' q = spare_of s q) as E.
  { intros q Hq. apply (slots_left _ _ _ q K); [exact (proj1 (D q Hq))|done]. }
  split_and!.
  - apply (left_weaken _ _ _ _ K). intros c ->. by exists p.
  - intros q Hq. destruct (D q Hq) as [Hin Hs]. split; [exact (in_store_left _ _ _ _ K Hin)|]. by destruct (E q Hq) as (_ & -> & ->).
  - done.
  - by left.
  - intros q r' Hq Hr'. rewrite (proj1 (E q Hq)) in Hr'. left. by exists q.
Qed.
Lemma obj_loop_left r m : ∀ s, left s (obj_loop unmarshal r m s).1 (λ c, c = LMap r).
Proof.
  induction m as [|[k j] m IH]; intros s; [apply left_refl|]. rewrite obj_loop_cons.
  pose proof (entry_clean j s (clean_decode_all j)) as He.
  assert (∃ s1 op err, entry_step unmarshal j s = (s1, op, err) ∧ left s s1 (λ _, False)) as (s1 & op & err & -> & K).
  { destruct (value_of_json j) as [t|].
    - destruct He as (s1 & op & c & E & _ & _ & _ & K). eauto 10.
    - destruct He as (s1 & op & E & K). eauto 10. }
  destruct err; [by apply (left_weaken _ _ (λ _, False))|].
  apply (left_trans _ (map_put s1 r k op) _ _ (λ c, c = LMap r)).
  - apply (left_trans _ s1 _ _ (λ c, c = LMap r)); [by apply (left_weaken _ _ (λ _, False))|apply left_map_put|by left].
  - apply IH.
  - by left.
Qed.
Lemma room_slots s p i q' : Some q' ∈ elems_of (make_room s p i) p ++ spare_of (make_room s p i) p → in_store s p →
  Some q' ∈ elems_of s p ++ spare_of s p.
Proof.
  intros H Hin. unfold make_room in H. destruct (decide _); [done|]. destruct (decide _).
  - rewrite elems_slots, spare_slots, take_drop in H by done. done.
  - set (s' := set_slots s p _ _) in H.
    change (Some q' ∈ elems_of s' p ++ spare_of s' p) in H. unfold s' in H. rewrite elems_slots, spare_slots in H by done.
    rewrite !elem_of_app in H. destruct H as [[H|H]|H]; [by apply elem_of_app; left| |]; by apply elem_of_replicate in H as [? _].
Qed.
Lemma room_obj s p i : in_store s p → v_obj (load (make_room s p i) p) = v_obj (load s p).
Proof.
  intros Hin. unfold make_room. destruct (decide _); [done|]. destruct (decide _); [by rewrite load_slots|].
  set (s' := set_slots s p _ _). change (v_obj (load s' p) = v_obj (load s p)). unfold s'. by rewrite load_slots.
Qed.
Lemma left_set_slot s p i x : left s (set_slot s p i x) (only p). Proof. apply left_slots. Qed.
Lemma set_slot_slots s p i x q' : in_store s p → Some q' ∈ elems_of (set_slot s p i x) p ++ spare_of (set_slot s p i x) p →
  x = Some q' ∨ Some q' ∈ elems_of s p ++ spare_of s p.
Proof.
  intros Hin. unfold set_slot. rewrite elems_slots, spare_slots by done. rewrite !elem_of_app. intros [H|H]; [|by right; right].
  apply elem_of_list_lookup in H as [k H]. destruct (decide (i = k)) as [->|].
  - destruct (decide (k < length (elems_of s p))).
    + rewrite list_lookup_insert in H by done. left. congruence.
    + rewrite list_insert_ge in H by lia. right. left. apply elem_of_list_lookup. eauto.
  - rewrite list_lookup_insert_ne in H by done. right. left. apply elem_of_list_lookup. eauto.
Qed.
Definition frames (j : json) : Prop := ∀ s p C, closed s C → C p → ∃ C', step s C (unmarshal j s p).1 C'.
Lemma step_room s C p i : closed s C → C p → step s C (make_room s p i) C.
Proof.
  intros D Hp. destruct (D p Hp) as [Hin Hs]. apply (step_only s C _ p D Hp); [apply left_room| |].
  - intros q' H. by apply Hs, (room_slots s p i).
  - intros r Hr. rewrite room_obj in Hr by done. left. by exists p.
Qed.
Lemma step_set_slot s C p i x : closed s C → C p → (∀ q, x = Some q → C q) → step s C (set_slot s p i x) C.
Proof.
  intros D Hp Hx. destruct (D p Hp) as [Hin Hs]. apply (step_only s C _ p D Hp); [apply left_slots| |].
  - intros q' H. destruct (set_slot_slots _ _ _ _ _ Hin H) as [E|H']; [by apply Hx|by apply Hs].
  - intros r Hr. unfold set_slot in Hr. rewrite load_slots in Hr by done. left. by exists p.
Qed.
Lemma step_closed s C s' C' : step s C s' C' → closed s' C'. Proof. by intros (_ & ? & _). Qed.
Lemma step_incl s C s' C' q : step s C s' C' → C q → C' q. Proof. intros (_ & _ & H & _). apply H. Qed.
Lemma elem_frames j p i s C : frames j → closed s C → C p → ∃ C', step s C (elem_step unmarshal p i j s).1 C'.
Proof.
  intros Hf D Hp. pose proof (step_room s C p i D Hp) as S1. set (s1 := make_room s p i) in *. pose proof (step_closed _ _ _ _ S1) as D1.
  assert (j = JNull ∨ j ≠ JNull) as [->|Hj] by (destruct j; (by left) || (by right)).
  - exists C. apply (step_trans _ _ _ _ _ _ S1). apply step_set_slot; done.
  - rewrite elem_step_value by done. fold s1. destruct (slot s1 p i) as [q|] eqn:Es.
    + assert (C q) as Hq.
      { apply (proj2 (D1 p Hp)), elem_of_app. left. apply elem_of_list_lookup. exists i. unfold slot in Es.
        destruct (elems_of s1 p !! i) as [x|]; cbn in Es; [by subst|done]. }
      destruct (Hf s1 q C D1 Hq) as (C' & S2). exists C'. exact (step_trans _ _ _ _ _ _ S1 S2).
    + pose proof (step_new s1 C D1) as S2. set (s2 := (new_value s1).1) in *. set (n := (new_value s1).2) in *.
      set (C2 := λ q, C q ∨ q = n) in *. pose proof (step_closed _ _ _ _ S2) as D2.
      assert (step s2 C2 (set_slot s2 p i (Some n)) C2) as S3. { apply step_set_slot; [done|by left|]. intros q [= <-]. by right. }
      destruct (Hf _ n C2 (step_closed _ _ _ _ S3) ltac:(by right)) as (C' & S4). exists C'.
      exact (step_trans _ _ _ _ _ _ S1 (step_trans _ _ _ _ _ _ S2 (step_trans _ _ _ _ _ _ S3 S4))).
Qed.
Lemma arr_frames p l : Forall frames l → ∀ i s C, closed s C → C p → ∃ C', step s C (arr_loop unmarshal p l i s).1 C'.
Proof.
  induction 1 as [|j l Hj _ IH]; intros i s C D Hp; [exists C; by apply step_refl|].
  rewrite arr_loop_cons. destruct (elem_frames j p i s C Hj D Hp) as (C1 & S1).
  destruct (elem_step unmarshal p i j s) as [s1 err] eqn:E. cbn [fst] in S1. destruct err; [by exists C1|].
  destruct (IH (S i) s1 C1 (step_closed _ _ _ _ S1) (step_incl _ _ _ _ _ S1 Hp)) as (C2 & S2). exists C2. exact (step_trans _ _ _ _ _ _ S1 S2).
Qed.
Lemma step_type s C p ty : closed s C → C p → step s C (set_type s p ty) C.
Proof.
  intros D Hp. destruct (D p Hp) as [Hin Hs]. apply (step_only s C _ p D Hp); [apply left_set_type| |].
  - intros q' H. apply Hs. unfold elems_of, spare_of in H. rewrite load_type in H by done. exact H.
  - intros r Hr. rewrite load_type in Hr by done. left. by exists p.
Qed.
Lemma step_cut s C p n : closed s C → C p → step s C (cut s p n) C.
Proof.
  intros D Hp. destruct (D p Hp) as [Hin Hs]. apply (step_only s C _ p D Hp); [apply left_cut| |].
  - intros q' H. apply Hs. unfold cut in H. destruct n; [rewrite elems_slots, spare_slots in H by done; by apply elem_of_nil in H|].
    destruct (decide _); [|done]. rewrite elems_slots, spare_slots, (assoc_L (++)), take_drop in H by done. done.
  - intros r Hr. left. exists p. split; [done|]. unfold cut in Hr.
    destruct n; [by rewrite load_slots in Hr|]. destruct (decide _); [by rewrite load_slots in Hr|done].
Qed.
Lemma step_save s C p v : closed s C → C p → v_arr v = v_arr (load s p) → v_obj v = v_obj (load s p) → step s C (save s p v) C.
Proof.
  intros D Hp Ha Ho. destruct (D p Hp) as [Hin Hs]. apply (step_only s C _ p D Hp); [apply left_save| |].
  - intros q' H. apply Hs. unfold elems_of, spare_of in H. rewrite load_save, Ha in H by done. exact H.
  - intros r Hr. rewrite load_save in Hr by done. left. exists p. by rewrite <-Ho.
Qed.
Lemma frames_all j : frames j.
Proof.
  induction j as [|b|neg m e|x|l IH|m IH] using json_ind'; intros s p C D Hp.
  - exists C. by apply step_type.
  - exists C. cbn [unmarshal fst]. by apply step_save.
  - exists C. cbn [unmarshal]. destruct (f64_of_dec neg m e); cbn [fst]; [by apply step_save|by apply step_refl].
  - exists C. cbn [unmarshal fst]. by apply step_save.
  - change (unmarshal (JArr l) s p) with (let '(s1, err) := arr_loop unmarshal p l 0 s in
      if err then (s1, true) else (set_type (cut s1 p (length l)) p ArrayType, false)).
    destruct (arr_frames p l IH 0 s C D Hp) as (C1 & S1). exists C1.
    destruct (arr_loop unmarshal p l 0 s) as [s1 err] eqn:E. cbn [fst] in S1. destruct err; [done|]. cbn [fst].
    pose proof (step_incl _ _ _ _ _ S1 Hp) as Hp1. pose proof (step_cut s1 C1 p (length l) (step_closed _ _ _ _ S1) Hp1) as S2.
    exact (step_trans _ _ _ _ _ _ S1 (step_trans _ _ _ _ _ _ S2 (step_type _ _ _ _ (step_closed _ _ _ _ S2) Hp1))).
  - exists C. destruct (D p Hp) as [Hin Hs].
    assert (∃ s0 r, unmarshal (JObj m) s p = (let '(s1, err) := obj_loop unmarshal r m s0 in
            if err then (s1, true) else (set_type s1 p ObjectType, false)) ∧ v_obj (load s0 p) = Some r ∧ step s C s0 C) as (s0 & r & Hu & Hr & S0).
    { destruct (v_obj (load s p)) as [r|] eqn:Eo.
      - exists s, r. split_and!; [|done|by apply step_refl]. cbn [unmarshal]. by rewrite Eo.
      - eexists _, _. split_and!; [cbn [unmarshal]; rewrite Eo; reflexivity| |].
        + erewrite load_of; [|cbn; by apply list_lookup_insert]. done.
        + set (s0 := mkVS _ _ _). set (v0 := mkValue _ _ _ _ _ _ _ _ _) in s0.
          assert (load s0 p = v0) as L0. { apply load_of. cbn. by apply list_lookup_insert. }
          apply (step_only s C s0 p D Hp).
          * split; [|done]. split_and!; cbn; [by rewrite insert_length|rewrite app_length; lia| |].
            -- intros q v Hq Hv. rewrite list_lookup_insert_ne; [done|]. intros ->. by apply Hq.
            -- intros r gm _ Hr. by apply lookup_app_l_Some.
          * intros q' H. apply Hs. unfold elems_of, spare_of in H. rewrite L0 in H. exact H.
          * intros r. rewrite L0. intros [= <-]. right. cbn. lia. }
    rewrite Hu. pose proof (obj_loop_left r m s0) as K. destruct (obj_loop unmarshal r m s0) as [s1 err]. cbn [fst] in K.
    pose proof (step_map s0 C s1 p r (step_closed _ _ _ _ S0) Hp Hr K) as S1. pose proof (step_trans _ _ _ _ _ _ S0 S1) as S01.
    destruct err; [exact S01|]. exact (step_trans _ _ _ _ _ _ S01 (step_type _ _ _ _ (step_closed _ _ _ _ S1) Hp)).
Qed.

(** ** Arrays are decoded in place *)
Definition slots (s : vstore) (p : ptr) : list (option ptr) := elems_of s p ++ spare_of s p.
(** What slot [k] points to, within the capacity. *)
Definition behind (s : vstore) (p : ptr) (k : nat) : option ptr := default None (slots s p !! k).
Definition with_arr (v : Value) (a : option (list (option ptr))) : Value :=
  mkValue (v_int v) (v_uint v) (v_float v) (v_ts v) (v_str v) a (v_obj v) (v_bool v) (v_type v).
(** The slot [x] after decoding [j] into it, when it was [old] before. *)
Definition placed (h : heap) (j : json) (old x : option ptr) : Prop :=
  match j with
  | JNull => x = None
  | _ => match old with Some q => x = Some q | None => ∃ q, x = Some q ∧ fresh h (LArr q) end
  end.
(** [p] is not among the values its slots lead to, which are in [C]. *)
Definition apart (s : vstore) (p : ptr) (C : ptr → Prop) : Prop :=
  in_store s p ∧ closed s C ∧ ¬ C p ∧ ∀ q, Some q ∈ slots s p → C q.
Lemma closed_left s s' P (C : ptr → Prop) : left s s' P → (∀ q, C q → ¬ P (LArr q)) → closed s C → closed s' C.
Proof.
  intros K HP D q Hq. destruct (D q Hq) as [Hin Hs]. split; [exact (in_store_left _ _ _ _ K Hin)|].
  destruct (slots_left _ _ _ q K Hin (HP q Hq)) as (_ & -> & ->). exact Hs.
Qed.
Lemma default_app_nones {A} (l : list (option A)) n k : default None ((l ++ replicate n None) !! k) = default None (l !! k).
Proof.
  destruct (decide (k < length l)) as [|Hk]; [by rewrite lookup_app_l|]. rewrite lookup_app_r by lia.
  rewrite (proj2 (lookup_ge_None l k)) by lia. destruct (replicate n None !! (k - length l)) as [x|] eqn:E; [|done].
  apply lookup_replicate in E as [-> _]. done.
Qed.
Lemma room_facts s p i : in_store s p → i ≤ length (elems_of s p) → let s1 := make_room s p i in
  i < length (elems_of s1 p) ∧ (∀ k, k < i → elems_of s1 p !! k = elems_of s p !! k) ∧ (∀ k, behind s1 p k = behind s p k) ∧
  ∃ a, load s1 p = with_arr (load s p) a.
Proof.
  intros Hin Hi. cbv zeta. unfold make_room. destruct (decide _) as [Hd|Hd].
  { split_and!; [done|done|done|]. exists (v_arr (load s p)). by destruct (load s p). }
  assert (i = length (elems_of s p)) as Ei by lia. destruct (decide _) as [Hd2|Hd2].
  - split_and!.
    + rewrite elems_slots by done. rewrite take_length. lia.
    + intros k Hk. rewrite elems_slots by done. rewrite lookup_take by lia. by rewrite lookup_app_l by lia.
    + intros k. unfold behind, slots. rewrite elems_slots, spare_slots by done. by rewrite take_drop.
    + eexists. by rewrite load_slots.
  - assert (spare_of s p = []) as Es. { rewrite app_length in Hd2. destruct (spare_of s p); [done|]. cbn in Hd2. lia. }
    set (s' := set_slots s p _ _). set (s1 := mkVS _ _ _).
    assert (elems_of s1 p = elems_of s p ++ replicate 1 None) as E1.
    { change (elems_of s1 p) with (elems_of s' p). unfold s'. rewrite elems_slots by done. by replace (S i - length (elems_of s p)) with 1 by lia. }
    assert (spare_of s1 p = replicate (hd 0 (vs_room s)) None) as E2.
    { change (spare_of s1 p) with (spare_of s' p). unfold s'. by rewrite spare_slots. }
    split_and!.
    + rewrite E1, app_length. cbn. lia.
    + intros k Hk. rewrite E1. by rewrite lookup_app_l by lia.
    + intros k. unfold behind, slots. rewrite E1, E2, Es, app_nil_r, <-(assoc_L (++)), <-replicate_add. apply default_app_nones.
    + eexists. change (load s1 p) with (load s' p). unfold s'. by rewrite load_slots.
Qed.
Lemma apart_room s p C i : apart s p C → apart (make_room s p i) p C.
Proof.
  intros (Hin & D & Hn & Hs). pose proof (left_room s p i) as K. split_and!; [exact (in_store_left _ _ _ _ K Hin)| |done|].
  - apply (closed_left _ _ _ _ K); [|done]. by intros q Hq [= ->].
  - intros q Hq. by apply Hs, (room_slots s p i).
Qed.
Lemma apart_set_slot s p C i x : apart s p C → (∀ q, x = Some q → C q) → apart (set_slot s p i x) p C.
Proof.
  intros (Hin & D & Hn & Hs) Hx. pose proof (left_set_slot s p i x) as K. split_and!; [exact (in_store_left _ _ _ _ K Hin)| |done|].
  - apply (closed_left _ _ _ _ K); [|done]. by intros q Hq [= ->].
  - intros q Hq. destruct (set_slot_slots _ _ _ _ _ Hin Hq); auto.
Qed.
Lemma set_slot_facts s p i x : in_store s p → i < length (elems_of s p) → let s1 := set_slot s p i x in
  elems_of s1 p = <[i := x]> (elems_of s p) ∧ (∀ k, k ≠ i → behind s1 p k = behind s p k) ∧ ∃ a, load s1 p = with_arr (load s p) a.
Proof.
  intros Hin Hi. cbv zeta. unfold set_slot. split_and!.
  - by rewrite elems_slots.
  - intros k Hk. unfold behind, slots. rewrite elems_slots, spare_slots by done. rewrite <-insert_app_l by done.
    by rewrite list_lookup_insert_ne.
  - eexists. by rewrite load_slots.
Qed.
(** Decoding into a value of [C] leaves [p] as it is. *)
Lemma apart_decode j s p C q : apart s p C → C q → let s1 := (unmarshal j s q).1 in
  (∃ C1, apart s1 p C1) ∧ load s1 p = load s p ∧ elems_of s1 p = elems_of s p ∧ spare_of s1 p = spare_of s p ∧
  length (hvals (vs_heap s)) ≤ length (hvals (vs_heap s1)).
Proof.
  intros (Hin & D & Hn & Hs) Hq. cbv zeta. destruct (frames_all j s q C D Hq) as (C1 & K & D1 & U & F & _).
  set (s1 := (unmarshal j s q).1) in *.
  destruct (slots_left _ _ _ p K Hin Hn) as (E1 & E2 & E3). split_and!; [|done|done|done|apply (proj1 K)].
  exists C1. split_and!; [exact (in_store_left _ _ _ _ K Hin)|done| |].
  - intros Hc. destruct (F p Hc) as [|Hf]; [done|]. unfold in_store in Hin. cbn [fresh] in Hf. lia.
  - unfold slots. rewrite E2, E3. intros q' Hq'. by apply U, Hs.
Qed.
Lemma elem_in_place p j i s C : apart s p C → i ≤ length (elems_of s p) → let s1 := (elem_step unmarshal p i j s).1 in
  (∃ C1, apart s1 p C1) ∧ i < length (elems_of s1 p) ∧ (∀ k, k < i → elems_of s1 p !! k = elems_of s p !! k) ∧
  (∃ x, elems_of s1 p !! i = Some x ∧ placed (vs_heap s) j (behind s p i) x) ∧ (∀ k, i < k → behind s1 p k = behind s p k) ∧
  (∃ a, load s1 p = with_arr (load s p) a) ∧ length (hvals (vs_heap s)) ≤ length (hvals (vs_heap s1)).
Proof.
  intros A Hi. cbv zeta. pose proof (apart_room s p C i A) as A1. destruct (room_facts s p i (proj1 A) Hi) as (Hl & Hk & Hb & a & La).
  pose proof (left_room s p i) as K1. set (s1 := make_room s p i) in *.
  assert (length (hvals (vs_heap s)) ≤ length (hvals (vs_heap s1))) as HL by apply (proj1 K1).
  assert (∃ x, elems_of s1 p !! i = Some x) as [x Ex] by (by apply lookup_lt_is_Some_2).
  assert (behind s p i = x) as Eb. { rewrite <-Hb. unfold behind, slots. rewrite lookup_app_l by done. by rewrite Ex. }
  assert (j = JNull ∨ j ≠ JNull) as [->|Hj] by (destruct j; (by left) || (by right)).
  - change (elem_step unmarshal p i JNull s) with (set_slot (make_room s p i) p i None, false). fold s1. cbn [fst].
    destruct (set_slot_facts s1 p i None (proj1 A1) Hl) as (F1 & F2 & a' & F3). pose proof (left_set_slot s1 p i None) as K2.
    split_and!.
    + exists C. by apply apart_set_slot.
    + by rewrite F1, insert_length.
    + intros k Hlt. rewrite F1, list_lookup_insert_ne by lia. by apply Hk.
    + exists None. rewrite F1. split; [by apply list_lookup_insert|done].
    + intros k Hlt. rewrite F2 by lia. apply Hb.
    + exists a'. rewrite F3, La. done.
    + etrans; [exact HL|apply (proj1 K2)].
  - rewrite elem_step_value by done. fold s1. assert (slot s1 p i = x) as -> by (unfold slot; by rewrite Ex). destruct x as [q|].
    + assert (C q) as Hq. { apply (proj2 (proj2 (proj2 A1))). unfold slots. apply elem_of_app. left. apply elem_of_list_lookup. eauto. }
      destruct (apart_decode j s1 p C q A1 Hq) as (A2 & E1 & E2 & E3 & HL2). set (s2 := (unmarshal j s1 q).1) in *. clearbody s2.
      split_and!.
      * done.
      * by rewrite E2.
      * intros k Hlt. rewrite E2. by apply Hk.
      * exists (Some q). rewrite E2, Eb. split; [done|]. unfold placed. by destruct j.
      * intros k Hlt. unfold behind, slots. rewrite E2, E3. apply Hb.
      * exists a. by rewrite E1.
      * lia.
    + pose proof (left_new s1) as KN. pose proof (step_new s1 C (proj1 (proj2 A1))) as (_ & DN & _ & FN & _).
      set (s2 := (new_value s1).1) in *. set (n := (new_value s1).2) in *.
      assert (n = length (hvals (vs_heap s1))) as En by done.
      destruct A1 as (Hin1 & D1 & Hn1 & Hs1).
      destruct (slots_left _ _ _ p KN Hin1 ltac:(by intros [])) as (N1 & N2 & N3).
      set (C2 := λ q, C q ∨ q = n) in *.
      assert (apart s2 p C2) as A2.
      { split_and!; [exact (in_store_left _ _ _ _ KN Hin1)|done| |].
        - intros [?|E]; [done|]. unfold in_store in Hin1. lia.
        - unfold slots. rewrite N2, N3. intros q Hq. left. by apply Hs1. }
      assert (i < length (elems_of s2 p)) as Hl2 by (by rewrite N2).
      destruct (set_slot_facts s2 p i (Some n) (proj1 A2) Hl2) as (F1 & F2 & a' & F3). pose proof (left_set_slot s2 p i (Some n)) as K3.
      assert (apart (set_slot s2 p i (Some n)) p C2) as A3. { apply apart_set_slot; [done|]. intros q [= <-]. by right. }
      set (s3 := set_slot s2 p i (Some n)) in *.
      destruct (apart_decode j s3 p C2 n A3 ltac:(by right)) as (A4 & E1 & E2 & E3 & HL4).
      assert (length (hvals (vs_heap s1)) ≤ length (hvals (vs_heap s3))) as HL3.
      { etrans; [apply (proj1 KN)|apply (proj1 K3)]. }
      clearbody s3. set (s4 := (unmarshal j s3 n).1) in *. clearbody s4.
      split_and!.
      * done.
      * by rewrite E2, F1, insert_length.
      * intros k Hlt. rewrite E2, F1, list_lookup_insert_ne, N2 by lia. by apply Hk.
      * exists (Some n). rewrite E2, F1, Eb. split; [by apply list_lookup_insert|].
        assert (∃ q, Some n = Some q ∧ fresh (vs_heap s) (LArr q)); [|unfold placed; by destruct j].
        exists n. split; [done|]. cbn [fresh]. lia.
      * intros k Hlt. unfold behind, slots. rewrite E2, E3. change (behind s3 p k = behind s p k). rewrite F2 by lia.
        unfold behind, slots. rewrite N2, N3. apply Hb.
      * exists a'. rewrite E1, F3, N1, La. done.
      * lia.
Qed.
Lemma placed_fresh h h' j old x : length (hvals h) ≤ length (hvals h') → placed h' j old x → placed h j old x.
Proof.
  intros HL. destruct j; try done; cbn [placed]; destruct old as [q|]; try done; intros (q & -> & Hf); exists q; (split; [done|]); cbn [fresh] in *; lia.
Qed.
Lemma arr_in_place p l : ∀ i s C s', apart s p C → i ≤ length (elems_of s p) → arr_loop unmarshal p l i s = (s', false) →
  i + length l ≤ length (elems_of s' p) ∧ (∀ k, k < i → elems_of s' p !! k = elems_of s p !! k) ∧
  (∀ k j, l !! k = Some j → ∃ x, elems_of s' p !! (i + k) = Some x ∧ placed (vs_heap s) j (behind s p (i + k)) x) ∧
  (∃ a, load s' p = with_arr (load s p) a) ∧ in_store s' p.
Proof.
  induction l as [|j l IH]; intros i s C s' A Hi H.
  - injection H as <-. split_and!; [cbn; lia|done|done| |exact (proj1 A)]. exists (v_arr (load s p)). by destruct (load s p).
  - rewrite arr_loop_cons in H. destruct (elem_in_place p j i s C A Hi) as ((C1 & A1) & Hl & Hk & (x & Ex & Px) & Hb & (a & La) & HL).
    destruct (elem_step unmarshal p i j s) as [s1 err]. cbn [fst] in *. destruct err; [done|].
    destruct (IH (S i) s1 C1 s' A1 Hl H) as (G1 & G2 & G3 & (a' & G4) & G5). split_and!.
    + cbn [length]. lia.
    + intros k Hlt. rewrite G2 by lia. by apply Hk.
    + intros [|k] j' Hj.
      * injection Hj as <-. exists x. rewrite Nat.add_0_r. rewrite G2 by lia. done.
      * destruct (G3 k j' Hj) as (y & Ey & Py). exists y. replace (i + S k) with (S i + k) by lia. split; [done|].
        apply (placed_fresh _ (vs_heap s1)); [done|]. rewrite <-(Hb (S i + k)) by lia. exact Py.
    + exists a'. rewrite G4, La. done.
    + done.
Qed.
Lemma array_in_place l s p C s' : apart s p C → unmarshal (JArr l) s p = (s', false) →
  ∃ ops, load s' p = mkValue (v_int (load s p)) (v_uint (load s p)) (v_float (load s p)) (v_ts (load s p)) (v_str (load s p)) (Some ops)
                            (v_obj (load s p)) (v_bool (load s p)) ArrayType ∧
    length ops = length l ∧ (∀ k j, l !! k = Some j → ∃ x, ops !! k = Some x ∧ placed (vs_heap s) j (behind s p k) x) ∧ in_store s' p.
Proof.
  intros A H.
  change (unmarshal (JArr l) s p) with (let '(s1, err) := arr_loop unmarshal p l 0 s in
      if err then (s1, true) else (set_type (cut s1 p (length l)) p ArrayType, false)) in H.
  destruct (arr_loop unmarshal p l 0 s) as [s1 err] eqn:E. destruct err; [done|]. injection H as <-.
  destruct (arr_in_place p l 0 s C s1 A ltac:(lia) E) as (G1 & _ & G3 & (a & G4) & G5).
  assert (in_store (cut s1 p (length l)) p) as Hc by exact (in_store_left _ _ _ _ (left_cut s1 p (length l)) G5).
  rewrite load_type by done.
  assert (∃ ops, load (cut s1 p (length l)) p = with_arr (load s p) (Some ops) ∧ ops = take (length l) (elems_of s1 p)) as (ops & Lc & Eo).
  { unfold cut. destruct (length l) as [|n] eqn:El.
    - exists []. rewrite load_slots, G4 by done. done.
    - destruct (decide _).
      + eexists. rewrite load_slots, G4 by done. done.
      + exists (elems_of s1 p). rewrite take_ge by lia. split; [|done]. rewrite G4. unfold elems_of in *.
        destruct (v_arr (load s1 p)) as [b|] eqn:Ea; [|cbn in *; lia]. rewrite G4 in Ea. cbn in Ea. subst a. done. }
  exists ops. rewrite Lc. split_and!; [done| | |].
  - rewrite Eo, take_length. lia.
  - intros k j Hj. destruct (G3 k j Hj) as (x & Ex & Px). exists x. split; [|done]. rewrite Eo, lookup_take; [done|]. by apply lookup_lt_Some in Hj.
  - exact (in_store_left _ _ _ _ (left_set_type _ p ArrayType) Hc).
Qed.

(** ** Decoding over arrays and scalars *)
(** [cs]: the values that the slots lead to, from [op]; with [nb], none of them has an object. *)
Inductive own (s : vstore) (nb : bool) : option ptr → list loc → Prop :=
| own_nil : own s nb None []
| own_val p cs : in_store s p → (nb = true → v_obj (load s p) = None) → own_list s nb (slots s p) cs → own s nb (Some p) (LArr p :: cs)
with own_list (s : vstore) (nb : bool) : list (option ptr) → list loc → Prop :=
| own_list_nil : own_list s nb [] []
| own_list_cons op ops c cs : own s nb op c → own_list s nb ops cs → own_list s nb (op :: ops) (c ++ cs).
Scheme own_mind := Minimality for own Sort Prop with own_list_mind := Minimality for own_list Sort Prop.
Combined Scheme own_mutind from own_mind, own_list_mind.
(** No object in the text. *)
Fixpoint no_objects (j : json) : bool :=
  match j with JArr l => forallb no_objects l | JObj _ => false | _ => true end.

Lemma own_frame_all s nb nb' s' P : left s s' P → (nb' = true → nb = true) →
  (∀ op cs, own s nb op cs → (∀ c, c ∈ cs → ¬ P c) → own s' nb' op cs) ∧
  (∀ ops cs, own_list s nb ops cs → (∀ c, c ∈ cs → ¬ P c) → own_list s' nb' ops cs).
Proof.
  intros K Hb. apply own_mutind.
  - intros _. apply own_nil.
  - intros p cs Hin Ho _ IH HP. destruct (slots_left _ _ _ p K Hin ltac:(apply HP; by left)) as (E1 & E2 & E3).
    apply own_val; [exact (in_store_left _ _ _ _ K Hin)|intros ?; rewrite E1; auto|]. unfold slots. rewrite E2, E3. apply IH. intros c Hc. apply HP. by right.
  - intros _. apply own_list_nil.
  - intros op ops c cs _ IH1 _ IH2 HP. apply own_list_cons; [apply IH1|apply IH2]; intros x Hx; apply HP, elem_of_app; auto.
Qed.
Lemma own_frame s nb nb' s' P op cs : left s s' P → (nb' = true → nb = true) → own s nb op cs → (∀ c, c ∈ cs → ¬ P c) → own s' nb' op cs.
Proof. intros K Hb. apply (proj1 (own_frame_all s nb nb' s' P K Hb)). Qed.
Lemma own_list_frame s nb nb' s' P ops cs : left s s' P → (nb' = true → nb = true) → own_list s nb ops cs → (∀ c, c ∈ cs → ¬ P c) → own_list s' nb' ops cs.
Proof. intros K Hb. apply (proj2 (own_frame_all s nb nb' s' P K Hb)). Qed.
Lemma own_list_app s nb l1 c1 l2 c2 : own_list s nb l1 c1 → own_list s nb l2 c2 → own_list s nb (l1 ++ l2) (c1 ++ c2).
Proof. induction 1 as [|op ops c cs Ho _ IH]; intros H2; [done|]. cbn [app]. rewrite <-(assoc_L (++)). apply own_list_cons; auto. Qed.
Lemma own_nones s nb n : own_list s nb (replicate n None) [].
Proof. induction n; [apply own_list_nil|]. exact (own_list_cons _ _ _ _ [] [] (own_nil _ _) IHn). Qed.
Lemma own_alloc_all s nb : (∀ op cs, own s nb op cs → ∀ c, c ∈ cs → ¬ fresh (vs_heap s) c) ∧ (∀ ops cs, own_list s nb ops cs → ∀ c, c ∈ cs → ¬ fresh (vs_heap s) c).
Proof.
  apply own_mutind.
  - intros c Hc. by apply elem_of_nil in Hc.
  - intros p cs Hin _ _ IH c Hc. apply elem_of_cons in Hc as [->|Hc]; [|by apply IH]. unfold in_store in Hin. cbn [fresh]. lia.
  - intros c Hc. by apply elem_of_nil in Hc.
  - intros op ops c cs _ IH1 _ IH2 x Hx. apply elem_of_app in Hx as [Hx|Hx]; auto.
Qed.
(** The slots of [p] stay when only other cells change. *)
Lemma slots_same s s' P p : left s s' P → in_store s p → ¬ P (LArr p) → slots s' p = slots s p ∧ elems_of s' p = elems_of s p ∧ load s' p = load s p.
Proof. intros K Hin Hn. destruct (slots_left _ _ _ p K Hin Hn) as (E1 & E2 & E3). unfold slots. by rewrite E2, E3. Qed.

Definition exact_decode (j : json) : Prop := ∀ s p cs, own s true (Some p) (LArr p :: cs) → NoDup (LArr p :: cs) →
  ∃ s' err cs', unmarshal j s p = (s', err) ∧ own s' (no_objects j) (Some p) (LArr p :: cs') ∧ NoDup (LArr p :: cs') ∧
    (∀ c, c ∈ cs' → c ∈ cs ∨ fresh (vs_heap s) c) ∧ left s s' (λ c, c ∈ LArr p :: cs) ∧
    match top_tree j with
    | Some t => err = false ∧ ∃ c, crep (vs_heap s') (Some p) t (LArr p :: c) ∧ NoDup (LArr p :: c) ∧ ∀ x, x ∈ c → x ∈ cs ∨ fresh (vs_heap s) x
    | None => err = true
    end.

Lemma room_own s p i done rest cr : in_store s p → length done = i → i ≤ length (elems_of s p) → slots s p = done ++ rest →
  own_list s true rest cr → (∀ c, c ∈ cr → c ≠ LArr p) → let s1 := make_room s p i in
  ∃ x rest1, i < length (elems_of s1 p) ∧ slots s1 p = done ++ x :: rest1 ∧ own_list s1 true (x :: rest1) cr ∧ ∃ a, load s1 p = with_arr (load s p) a.
Proof.
  intros Hin Hd Hi Hs Ho Hp. cbv zeta. destruct (room_facts s p i Hin Hi) as (Hl & _ & _ & Ha). pose proof (left_room s p i) as K.
  set (s1 := make_room s p i) in *.
  assert (∃ n, slots s1 p = slots s p ++ replicate n None) as (n & En).
  { unfold s1, make_room. destruct (decide _); [exists 0; by rewrite app_nil_r|]. destruct (decide _) as [|Hd2].
    - exists 0. rewrite app_nil_r. unfold slots at 1. rewrite elems_slots, spare_slots by done. by rewrite take_drop.
    - assert (spare_of s p = []) as Es. { rewrite app_length in Hd2. destruct (spare_of s p); [done|]. cbn in Hd2. lia. }
      set (s' := set_slots s p _ _). exists (S i - length (elems_of s p) + hd 0 (vs_room s)).
      change (slots s' p = slots s p ++ replicate (S i - length (elems_of s p) + hd 0 (vs_room s)) None).
      unfold slots. unfold s'. rewrite elems_slots, spare_slots by done. rewrite Es, app_nil_r, replicate_add. by rewrite (assoc_L (++)). }
  rewrite Hs, <-(assoc_L (++)) in En.
  assert (own_list s1 true (rest ++ replicate n None) cr) as Ho1.
  { rewrite <-(app_nil_r cr). apply own_list_app; [|apply own_nones].
    apply (own_list_frame s true true s1 _ _ _ K); [done|done|]. intros c Hc ->. by apply (Hp _ Hc). }
  destruct (rest ++ replicate n None) as [|x rest1].
  { exfalso. rewrite app_nil_r in En. unfold slots in En. apply (f_equal length) in En. rewrite app_length in En. lia. }
  by exists x, rest1.
Qed.
Lemma slots_set_slot s p i x done y rest : in_store s p → length done = i → i < length (elems_of s p) → slots s p = done ++ y :: rest →
  slots (set_slot s p i x) p = done ++ x :: rest ∧ length (elems_of (set_slot s p i x) p) = length (elems_of s p) ∧ ∃ a, load (set_slot s p i x) p = with_arr (load s p) a.
Proof.
  intros Hin Hd Hi Hs. unfold set_slot. unfold slots at 1. rewrite !elems_slots, spare_slots, load_slots by done. rewrite insert_length. split_and!; [|done|by eexists].
  rewrite <-insert_app_l by done. fold (slots s p). rewrite Hs. rewrite insert_app_r_alt by lia. by rewrite Hd, Nat.sub_diag.
Qed.
Lemma elem_exact p j i s done rest cr : exact_decode j → in_store s p → length done = i → i ≤ length (elems_of s p) → slots s p = done ++ rest →
  own_list s true rest cr → NoDup (LArr p :: cr) →
  ∃ s1 err op co rest1 cr1, elem_step unmarshal p i j s = (s1, err) ∧ i < length (elems_of s1 p) ∧ slots s1 p = done ++ op :: rest1 ∧
    own s1 (no_objects j) op co ∧ own_list s1 true rest1 cr1 ∧ NoDup (LArr p :: co ++ cr1) ∧ (∀ c, c ∈ co → c ∈ cr ∧ c ∉ cr1 ∨ fresh (vs_heap s) c) ∧
    (∀ c, c ∈ cr1 → c ∈ cr) ∧
    left s s1 (λ c, c = LArr p ∨ c ∈ cr ∧ c ∉ cr1) ∧ (∃ a, load s1 p = with_arr (load s p) a) ∧
    match value_of_json j with
    | Some t => err = false ∧ ∃ c, crep (vs_heap s1) op t c ∧ NoDup c ∧ ∀ x, x ∈ c → (x ∈ cr ∧ x ∉ cr1) ∨ fresh (vs_heap s) x
    | None => err = true
    end.
Proof.
  intros Hj Hin Hd Hi Hs Ho Hnd. apply NoDup_cons in Hnd as [Hpc Hnd].
  destruct (room_own s p i done rest cr Hin Hd Hi Hs Ho ltac:(intros c Hc ->; done)) as (x & rest1 & Hl & Hs1 & Ho1 & a & La).
  pose proof (left_room s p i) as K1. set (s1 := make_room s p i) in *.
  assert (in_store s1 p) as Hin1 by exact (in_store_left _ _ _ _ K1 Hin).
  inversion Ho1 as [|x' rest' c0 cr1 Hx Hr Ex Ec]. subst x' rest'. rewrite Ec.
  assert (∀ c, c ∈ cr1 → c ∉ c0) as Hdis. { rewrite <-Ec in Hnd. apply NoDup_app in Hnd as (_ & H & _). intros c Hc Hc0. by apply (H c). }
  assert (NoDup c0 ∧ NoDup cr1) as [N0 N1]. { rewrite <-Ec in Hnd. apply NoDup_app in Hnd as (? & _ & ?). done. }
  assert (∀ c, c ∈ c0 → c ∈ cr ∧ c ∉ cr1) as H0. { intros c Hc. rewrite <-Ec. split; [apply elem_of_app; by left|]. intros H. by apply (Hdis c). }
  assert (∀ c, c ∈ cr1 → c ∈ cr) as H1. { intros c Hc. rewrite <-Ec. apply elem_of_app. by right. }
  assert (j = JNull ∨ j ≠ JNull) as [->|Hn] by (destruct j; (by left) || (by right)).
  { change (elem_step unmarshal p i JNull s) with (set_slot s1 p i None, false). cbn [value_of_json].
    destruct (slots_set_slot s1 p i None done x rest1 Hin1 Hd Hl Hs1) as (S2 & L2 & a2 & La2). pose proof (left_set_slot s1 p i None) as K2.
    exists (set_slot s1 p i None), false, None, [], rest1, cr1. split_and!; try done.
    - by rewrite L2.
    - apply own_nil.
    - apply (own_list_frame s1 true true _ _ _ _ K2); [done|done|]. intros c Hc ->. by apply Hpc, H1.
    - cbn [app]. apply NoDup_cons. split; [|done]. intros H. by apply Hpc, H1.
    - intros c Hc. by apply elem_of_nil in Hc.
    - apply (left_weaken _ _ (only p)); [|by left]. apply (left_trans _ _ _ _ _ K1 K2). by left.
    - exists a2. by rewrite La2, La.
    - exists []. split_and!; [apply crep_nil|apply NoDup_nil_2|]. intros y Hy. by apply elem_of_nil in Hy. }
  rewrite elem_step_value by done. fold s1.
  assert (top_tree j = value_of_json j) as Et by (by destruct j).
  assert (slot s1 p i = x) as ->.
  { unfold slot. assert (elems_of s1 p !! i = Some x) as ->; [|done]. rewrite <-(lookup_app_l _ (spare_of s1 p)) by done.
    fold (slots s1 p). rewrite Hs1. rewrite lookup_app_r by lia. by rewrite Hd, Nat.sub_diag. }
  destruct x as [q|].
  - inversion Hx as [|q' c0' Hq1 Hq2 Hq3 Hq4 Hq5]. subst q' c0. rename c0' into c0.
    destruct (Hj s1 q c0 Hx N0) as (s2 & err & cs2 & Hu & Ho2 & Nd2 & Hc2 & K2 & Ht). rewrite Et in Ht.
    assert (LArr p ∉ LArr q :: c0) as Hpq. { intros H. by apply Hpc, H0. }
    destruct (slots_same s1 s2 _ p K2 Hin1 Hpq) as (E1 & E2 & E3).
    assert (left s s2 (λ c, c = LArr p ∨ c ∈ cr ∧ c ∉ cr1)) as K02.
    { apply (left_trans _ s1 _ _ (λ c, c ∈ LArr q :: c0)); [apply (left_weaken _ _ _ _ K1); by left|done|]. intros c Hc. left. right. by apply H0. }
    exists s2, err, (Some q), (LArr q :: cs2), rest1, cr1. split_and!.
    + done.
    + by rewrite E2.
    + by rewrite E1.
    + done.
    + apply (own_list_frame s1 true true _ _ _ _ K2); [done|done|]. intros c Hc H. by apply (Hdis c).
    + assert (∀ c, c ∈ LArr q :: cs2 → c ∈ LArr q :: c0 ∨ fresh (vs_heap s1) c) as Hc2'.
      { intros c Hc. apply elem_of_cons in Hc as [->|Hc]; [left; by left|]. destruct (Hc2 c Hc); [left; by right|by right]. }
      apply NoDup_cons. split.
      * rewrite elem_of_app. intros [H|H]; [|by apply Hpc, H1]. destruct (Hc2' _ H) as [H'|H']; [done|].
        unfold in_store in Hin1. cbn [fresh] in H'. lia.
      * apply NoDup_app. split_and!; [done| |done]. intros c Hc Hc1. destruct (Hc2' _ Hc) as [H'|H']; [by apply (Hdis c)|].
        by apply (proj2 (own_alloc_all s1 true) _ _ Hr c).
    + intros c Hc. apply elem_of_cons in Hc as [->|Hc]; [left; apply H0; by left|].
      destruct (Hc2 c Hc) as [H'|H']; [left; apply H0; by right|right]. exact (kept_fresh _ _ _ _ (proj1 K1) H').
    + exact H1.
    + done.
    + exists a. by rewrite E3.
    + destruct (value_of_json j) as [t|]; [|done]. destruct Ht as (-> & c & Hc & Nc & Hcc). split; [done|]. exists (LArr q :: c). split_and!; [done|done|].
      intros y Hy. apply elem_of_cons in Hy as [->|Hy]; [left; apply H0; by left|].
      destruct (Hcc y Hy) as [H'|H']; [left; apply H0; by right|right]. exact (kept_fresh _ _ _ _ (proj1 K1) H').
  - inversion Hx. subst c0. pose proof (left_new s1) as K2. set (s2 := (new_value s1).1) in *. set (n := (new_value s1).2).
    assert (in_store s2 p) as Hin2 by exact (in_store_left _ _ _ _ K2 Hin1).
    destruct (slots_same s1 s2 _ p K2 Hin1 ltac:(by intros [])) as (E1 & E2 & E3).
    destruct (slots_set_slot s2 p i (Some n) done None rest1 Hin2 Hd ltac:(by rewrite E2) ltac:(by rewrite E1)) as (S3 & L3 & a3 & La3).
    pose proof (left_set_slot s2 p i (Some n)) as K3. set (s3 := set_slot s2 p i (Some n)) in *.
    assert (n ≠ p) as Hnp. { intros E. unfold in_store in Hin1. rewrite <-E in Hin1. unfold n in Hin1. cbn in Hin1. lia. }
    assert (in_store s3 n) as Hn3. { apply (in_store_left s2 s3 _ n K3). apply in_store_new. }
    assert (load s3 n = zeroValue) as Ln. { rewrite (load_left s2 s3 (only p) n K3); [apply load_new|apply in_store_new|]. intros [= E]. done. }
    assert (in_store s3 p) as Hin3 by exact (in_store_left _ _ _ _ K3 Hin2).
    assert (left s1 s3 (only p)) as K13. { apply (left_trans _ s2 _ (only p) (only p)); [by apply (left_weaken _ _ (λ _, False))|done|by left]. }
    assert (left s s3 (only p)) as K03. { apply (left_trans _ _ _ _ _ K1 K13). by left. }
    assert (own s3 true (Some n) [LArr n]) as Hon.
    { apply own_val; [done|by rewrite Ln|]. unfold slots, elems_of, spare_of. rewrite Ln. apply own_list_nil. }
    assert (fresh (vs_heap s1) (LArr n)) as Fn by (unfold n; cbn; lia).
    assert (fresh (vs_heap s) (LArr n)) as Fn0 by exact (kept_fresh _ _ _ _ (proj1 K1) Fn).
    destruct (Hj s3 n [] Hon ltac:(apply NoDup_singleton)) as (s4 & err & cs4 & Hu & Ho4 & Nd4 & Hc4 & K4 & Ht). rewrite Et in Ht.
    destruct (slots_same s3 s4 _ p K4 Hin3 ltac:(intros H; apply elem_of_list_singleton in H; injection H as H; done)) as (F1 & F2 & F3).
    assert (∀ c, c ∈ LArr n :: cs4 → fresh (vs_heap s) c ∧ fresh (vs_heap s1) c) as Hfr.
    { intros c Hc. apply elem_of_cons in Hc as [->|Hc]; [done|]. destruct (Hc4 c Hc) as [H'|H']; [by apply elem_of_nil in H'|].
      split; [exact (kept_fresh _ _ _ _ (proj1 K03) H')|exact (kept_fresh _ _ _ _ (proj1 K13) H')]. }
    exists s4, err, (Some n), (LArr n :: cs4), rest1, cr1. split_and!.
    + done.
    + by rewrite F2, L3, E2.
    + by rewrite F1.
    + done.
    + apply (own_list_frame s3 true true _ _ _ _ K4); [done| |].
      * apply (own_list_frame s1 true true _ _ _ _ K13); [done|done|]. intros c Hc ->. by apply Hpc, H1.
      * intros c Hc H. apply elem_of_list_singleton in H as ->. by apply (proj2 (own_alloc_all s1 true) _ _ Hr _ Hc).
    + apply NoDup_cons. split.
      * rewrite elem_of_app. intros [H|H]; [|by apply Hpc, H1]. destruct (Hfr _ H) as [_ H']. unfold in_store in Hin1. cbn [fresh] in H'. lia.
      * apply NoDup_app. split_and!; [done| |done]. intros c Hc Hc1. destruct (Hfr _ Hc) as [_ H']. by apply (proj2 (own_alloc_all s1 true) _ _ Hr c).
    + intros c Hc. right. by apply Hfr.
    + exact H1.
    + apply (left_trans _ s3 _ _ (λ c, c ∈ [LArr n])); [apply (left_weaken _ _ _ _ K03); by left|done|].
      intros c Hc. apply elem_of_list_singleton in Hc as ->. by right.
    + exists a3. by rewrite F3, La3, E3, La.
    + destruct (value_of_json j) as [t|]; [|done]. destruct Ht as (-> & c & Hc & Nc & Hcc). split; [done|]. exists (LArr n :: c). split_and!; [done|done|].
      intros y Hy. right. apply elem_of_cons in Hy as [->|Hy]; [done|]. destruct (Hcc y Hy) as [H'|H']; [by apply elem_of_nil in H'|].
      exact (kept_fresh _ _ _ _ (proj1 K03) H').
Qed.
Lemma arr_exact p l : Forall exact_decode l → ∀ i s done rest cr, in_store s p → length done = i → i ≤ length (elems_of s p) → slots s p = done ++ rest →
  own_list s true rest cr → NoDup (LArr p :: cr) →
  ∃ s' err ops co rest' cr', arr_loop unmarshal p l i s = (s', err) ∧ i + length ops ≤ length (elems_of s' p) ∧ slots s' p = done ++ ops ++ rest' ∧
    own_list s' (forallb no_objects l) ops co ∧ own_list s' true rest' cr' ∧ NoDup (LArr p :: co ++ cr') ∧
    (∀ c, c ∈ co ++ cr' → c ∈ cr ∨ fresh (vs_heap s) c) ∧ left s s' (λ c, c ∈ LArr p :: cr) ∧ (∃ a, load s' p = with_arr (load s p) a) ∧
    match osequence (map value_of_json l) with
    | Some ts => err = false ∧ length ops = length l ∧ ∃ c, crep_list (vs_heap s') ops ts c ∧ NoDup c ∧ ∀ x, x ∈ c → x ∈ cr ∨ fresh (vs_heap s) x
    | None => err = true
    end.
Proof.
  induction 1 as [|j l Hj Hl IH]; intros i s done rest cr Hin Hd Hi Hs Ho Hnd.
  - exists s, false, [], [], rest, cr. cbn [map osequence app length]. split_and!; try done.
    + lia.
    + apply own_list_nil.
    + by left.
    + exists (v_arr (load s p)). by destruct (load s p).
    + exists []. split_and!; [apply crep_list_nil|apply NoDup_nil_2|]. intros y Hy. by apply elem_of_nil in Hy.
  - rewrite arr_loop_cons.
    destruct (elem_exact p j i s done rest cr Hj Hin Hd Hi Hs Ho Hnd)
      as (s1 & err & op & co & rest1 & cr1 & -> & Hl1 & Hs1 & Ho1 & Hr1 & Nd1 & Hco & Hcr & K1 & (a & La) & Ht).
    assert (in_store s1 p) as Hin1 by exact (in_store_left _ _ _ _ K1 Hin).
    assert (left s s1 (λ c, c ∈ LArr p :: cr)) as K1'. { apply (left_weaken _ _ _ _ K1). intros c [->|[Hc _]]; [by left|by right]. }
    destruct (value_of_json j) as [t|] eqn:Ej.
    2: { subst err. exists s1, true, [op], (co ++ []), rest1, cr1. cbn [map osequence]. rewrite Ej. split_and!; try done.
      - cbn. lia.
      - apply own_list_cons; [|apply own_list_nil]. apply (own_frame s1 (no_objects j) _ s1 (λ _, False)); [apply left_refl| |done|by intros ? ? []].
        cbn [forallb]. by intros [? _]%andb_prop.
      - by rewrite app_nil_r.
      - intros c. rewrite app_nil_r, elem_of_app. intros [Hc|Hc]; [destruct (Hco c Hc) as [[? _]|?]; auto|left; auto].
      - eauto. }
    destruct Ht as (-> & c & Hc & Nc & Hcc).
    assert (NoDup (LArr p :: cr1)) as Nd1'.
    { apply NoDup_cons in Nd1 as [H1 H2]. apply NoDup_cons. split; [intros H; apply H1, elem_of_app; by right|]. by apply NoDup_app in H2 as (_ & _ & ?). }
    destruct (IH (S i) s1 (done ++ [op]) rest1 cr1 Hin1 ltac:(rewrite app_length; cbn; lia) Hl1 ltac:(by rewrite <-(assoc_L (++))) Hr1 Nd1')
      as (s' & err & ops & co2 & rest' & cr' & -> & Hl2 & Hs2 & Ho2 & Hr2 & Nd2 & Hc2 & K2 & (a2 & La2) & Ht2).
    assert (∀ x, (x ∈ cr ∧ x ∉ cr1) ∨ fresh (vs_heap s) x → ¬ fresh (vs_heap s1) x → x ≠ LArr p → x ∉ LArr p :: cr1) as Hout.
    { intros x Hx Hnf Hne Hin'. apply elem_of_cons in Hin' as [?|Hin']; [done|]. destruct Hx as [[_ ?]|Hf]; [done|].
      apply (proj2 (own_alloc_all s true) _ _ Ho x); [by apply Hcr|done]. }
    assert (∀ x, x ∈ co → x ≠ LArr p) as Hcop. { intros x Hx ->. apply NoDup_cons in Nd1 as [H1 _]. apply H1, elem_of_app. by left. }
    assert (∀ x, x ∈ c → x ≠ LArr p) as Hcp.
    { intros x Hx ->. destruct (Hcc _ Hx) as [[H' _]|H'].
      - apply NoDup_cons in Hnd as [H1 _]. done.
      - unfold in_store in Hin. cbn [fresh] in H'. lia. }
    assert (∀ x, x ∈ c → x ∉ LArr p :: cr1) as Hc1.
    { intros x Hx. apply Hout; [by apply Hcc| |by apply Hcp]. pose proof (proj1 (crep_allocated_all (vs_heap s1)) _ _ _ Hc) as HF. rewrite Forall_forall in HF. by apply HF. }
    assert (∀ x, x ∈ co → x ∉ LArr p :: cr1) as Hco1.
    { intros x Hx. apply Hout; [by apply Hco| |by apply Hcop]. by apply (proj1 (own_alloc_all s1 (no_objects j)) _ _ Ho1). }
    assert (∀ x, x ∈ co → x ∉ co2 ++ cr') as Hdis.
    { intros x Hx Hx2. destruct (Hc2 x Hx2) as [H'|H']; [apply (Hco1 x Hx); by right|]. by apply (proj1 (own_alloc_all s1 (no_objects j)) _ _ Ho1 x). }
    exists s', err, (op :: ops), (co ++ co2), rest', cr'. split_and!.
    + done.
    + cbn [length]. lia.
    + rewrite Hs2, <-(assoc_L (++)). done.
    + apply own_list_cons.
      * apply (own_frame s1 (no_objects j) _ s' _ _ _ K2); [cbn [forallb]; by intros [? _]%andb_prop|done|done].
      * apply (own_list_frame s' (forallb no_objects l) _ s' (λ _, False)); [apply left_refl|cbn [forallb]; by intros [_ ?]%andb_prop|done|by intros ? ? []].
    + done.
    + rewrite <-(assoc_L (++)). apply NoDup_cons in Nd2 as [H1 H2]. apply NoDup_cons. split.
      * rewrite elem_of_app. intros [H|H]; [by apply (Hcop _ H)|done].
      * apply NoDup_app. split_and!; [|done|done]. apply NoDup_cons in Nd1 as [_ H3]. by apply NoDup_app in H3 as (? & _).
    + intros x. rewrite <-(assoc_L (++)), elem_of_app. intros [H|H].
      * destruct (Hco x H) as [[? _]|?]; auto.
      * destruct (Hc2 x H) as [?|H']; [left; auto|right; exact (kept_fresh _ _ _ _ (proj1 K1) H')].
    + apply (left_trans _ _ _ _ _ K1' K2). intros x Hx. left. apply elem_of_cons in Hx as [->|Hx]; [by left|right; auto].
    + exists a2. by rewrite La2, La.
    + cbn [map osequence]. rewrite Ej. destruct (osequence (map value_of_json l)) as [ts|]; [|done].
      destruct Ht2 as (-> & Hlen & c2 & Hcl & Nc2 & Hcc2). split_and!; [done|cbn; lia|]. exists (c ++ c2). split_and!.
      * apply crep_list_cons; [|done]. apply (proj1 (crep_frame_all (vs_heap s1) (vs_heap s'))); [done|].
        apply (kept_same _ _ _ _ (proj1 K2)). apply Forall_forall. exact Hc1.
      * apply NoDup_app. split_and!; [done| |done]. intros x Hx Hx2. destruct (Hcc2 x Hx2) as [H'|H']; [apply (Hc1 x Hx); by right|].
        pose proof (proj1 (crep_allocated_all (vs_heap s1)) _ _ _ Hc) as HF. rewrite Forall_forall in HF. by apply (HF x).
      * intros x. rewrite elem_of_app. intros [H|H].
        -- destruct (Hcc x H) as [[? _]|?]; auto.
        -- destruct (Hcc2 x H) as [?|H']; [left; auto|right; exact (kept_fresh _ _ _ _ (proj1 K1) H')].
Qed.
Lemma obj_slots m s p : in_store s p → slots (unmarshal (JObj m) s p).1 p = slots s p.
Proof.
  intros Hin.
  assert (∃ s0 r, unmarshal (JObj m) s p = (let '(s1, err) := obj_loop unmarshal r m s0 in
            if err then (s1, true) else (set_type s1 p ObjectType, false)) ∧ slots s0 p = slots s p ∧ in_store s0 p) as (s0 & r & Hu & Hs & Hin0).
  { destruct (v_obj (load s p)) as [r|] eqn:Eo.
    - exists s, r. split_and!; [|done|done]. cbn [unmarshal]. by rewrite Eo.
    - eexists _, _. split_and!; [cbn [unmarshal]; rewrite Eo; reflexivity| |].
      + set (s0 := mkVS _ _ _). set (v0 := mkValue _ _ _ _ _ _ _ _ _) in s0.
        assert (load s0 p = v0) as L0. { apply load_of. cbn. by apply list_lookup_insert. }
        unfold slots, elems_of, spare_of. by rewrite L0.
      + unfold in_store. cbn. by rewrite insert_length. }
  rewrite Hu, <-Hs. pose proof (obj_loop_left r m s0) as K. destruct (obj_loop unmarshal r m s0) as [s1 err]. cbn [fst] in K.
  destruct (slots_same s0 s1 _ p K Hin0 ltac:(done)) as (E1 & _). pose proof (in_store_left _ _ _ _ K Hin0) as Hin1.
  destruct err; cbn [fst]; [done|]. rewrite <-E1. unfold slots, elems_of, spare_of. by rewrite load_type.
Qed.
Lemma exact_decode_all j : exact_decode j.
Proof.
  induction j as [|b|neg m e|x|l IH|m IH] using json_ind'; intros s p cs Ho Hnd;
    inversion Ho as [|p' cs' Hin Hob Hsl Ep Ec]; subst p' cs'; specialize (Hob eq_refl); pose proof (load_some s p Hin) as Hv.
  all: assert (LArr p ∉ cs ∧ NoDup cs) as [Hpc Hnc] by (by apply NoDup_cons in Hnd).
  1-4: assert (∀ v' nb, v_obj v' = None → v_arr v' = v_arr (load s p) → own (save s p v') nb (Some p) (LArr p :: cs)) as Hsave.
  1,3,5,7: intros v' nb Ho' Ha'; assert (in_store (save s p v') p) as Hin' by exact (in_store_left _ _ _ _ (left_save s p v') Hin);
    (apply own_val; [done|intros _; by rewrite load_save|]); unfold slots, elems_of, spare_of; rewrite load_save, Ha' by done;
    (apply (own_list_frame s true nb (save s p v') (only p)); [apply left_save|done|exact Hsl|]); intros c Hc ->; done.
  1-4: assert (∀ v', left s (save s p v') (λ c, c ∈ LArr p :: cs)) as Hleft by (intros v'; apply (left_weaken _ _ _ _ (left_save s p v')); intros c ->; by left).
  1-4: assert (∀ v' t, v_obj v' = None → scalar_tree v' = Some t → ∃ c, crep (vs_heap (save s p v')) (Some p) t (LArr p :: c) ∧ NoDup (LArr p :: c) ∧ ∀ x, x ∈ c → x ∈ cs ∨ fresh (vs_heap s) x) as Hcrep.
  1,3,5,7: intros v' t Ho' Ht; exists []; (split_and!; [|apply NoDup_singleton|intros y Hy; by apply elem_of_nil in Hy]);
    (apply (crep_scalar _ p v'); [apply list_lookup_insert; exact Hin|done]).
  - cbn [unmarshal top_tree no_objects]. unfold set_type. eexists _, _, cs. split_and!; [reflexivity|by apply Hsave|done|by left|apply Hleft|done|].
    apply Hcrep; [done|]. unfold scalar_tree. cbn. by rewrite Hob.
  - cbn [unmarshal top_tree no_objects value_of_json]. eexists _, _, cs. split_and!; [reflexivity|by apply Hsave|done|by left|apply Hleft|done|].
    apply Hcrep; [done|]. unfold scalar_tree. cbn. by rewrite Hob.
  - cbn [unmarshal top_tree no_objects value_of_json]. destruct (f64_of_dec neg m e) as [b|].
    2: { exists s, true, cs. split_and!; try done. by left. }
    eexists _, _, cs. split_and!; [reflexivity|by apply Hsave|done|by left|apply Hleft|done|].
    apply Hcrep; [done|]. unfold scalar_tree. cbn. by rewrite Hob.
  - cbn [unmarshal top_tree no_objects value_of_json]. eexists _, _, cs. split_and!; [reflexivity|by apply Hsave|done|by left|apply Hleft|done|].
    apply Hcrep; [done|]. unfold scalar_tree. cbn. by rewrite Hob.
  - change (unmarshal (JArr l) s p) with (let '(s1, err) := arr_loop unmarshal p l 0 s in
      if err then (s1, true) else (set_type (cut s1 p (length l)) p ArrayType, false)).
    destruct (arr_exact p l IH 0 s [] (slots s p) cs Hin eq_refl ltac:(lia) eq_refl Hsl Hnd)
      as (s1 & err & ops & co & rest & cr & -> & Hl1 & Hs1 & Ho1 & Hr1 & Nd1 & Hc1 & K1 & (a & La) & Ht).
    cbn [app] in Hs1. pose proof (in_store_left _ _ _ _ K1 Hin) as Hin1.
    assert (own_list s1 (forallb no_objects l) (ops ++ rest) (co ++ cr)) as Hall.
    { apply own_list_app; [done|]. apply (own_list_frame s1 true _ s1 (λ _, False)); [apply left_refl|done|done|by intros ? ? []]. }
    change (top_tree (JArr l)) with (option_map TArr (osequence (map value_of_json l))).
    change (no_objects (JArr l)) with (forallb no_objects l).
    destruct (osequence (map value_of_json l)) as [ts|].
    2: { subst err. exists s1, true, (co ++ cr). split_and!; try done. apply own_val; [done|intros _; by rewrite La|by rewrite Hs1]. }
    destruct Ht as (-> & Hlen & c & Hc & Nc & Hcc). cbn [option_map].
    set (s2 := cut s1 p (length l)). assert (left s1 s2 (only p)) as K2 by apply left_cut.
    pose proof (in_store_left _ _ _ _ K2 Hin1) as Hin2.
    assert (∃ rest2 cr2, slots s2 p = ops ++ rest2 ∧ own_list s1 (forallb no_objects l) (ops ++ rest2) (co ++ cr2) ∧ (∀ c, c ∈ cr2 → c ∈ cr) ∧ NoDup (co ++ cr2) ∧
              v_arr (load s2 p) = Some ops ∧ v_obj (load s2 p) = None) as (rest2 & cr2 & Hs2 & Ho2 & Hcr2 & Nd2 & Ha2 & Hb2).
    { apply NoDup_cons in Nd1 as [_ Nd1]. unfold s2, cut. destruct (length l) as [|n] eqn:El.
      - destruct ops; [|done]. exists [], []. unfold slots. rewrite elems_slots, spare_slots, load_slots by done. cbn.
        inversion Ho1. subst co. split_and!; [done|apply own_list_nil|intros ? H; by apply elem_of_nil in H|apply NoDup_nil_2|done|by rewrite La].
      - rewrite <-El in *. assert (take (length l) (elems_of s1 p) = ops) as Et.
        { assert (take (length l) (slots s1 p) = ops) as Et by (rewrite Hs1, <-Hlen; apply take_app). unfold slots in Et. rewrite take_app_le in Et; [done|lia]. }
        exists rest, cr. destruct (decide _) as [Hd|Hd].
        + unfold slots. rewrite elems_slots, spare_slots, load_slots by done. rewrite (assoc_L (++)), take_drop. fold (slots s1 p). rewrite Et.
          split_and!; try done. by rewrite La.
        + split_and!; try done; [|by rewrite La]. rewrite take_ge in Et by lia. unfold elems_of in *.
          destruct (v_arr (load s1 p)) as [b|]; cbn in *; [by subst|]. subst ops. cbn in Hlen. lia. }
    pose proof (left_set_type s2 p ArrayType) as K3. set (s3 := set_type s2 p ArrayType) in *.
    pose proof (in_store_left _ _ _ _ K3 Hin2) as Hin3.
    assert (load s3 p = mkValue (v_int (load s2 p)) (v_uint (load s2 p)) (v_float (load s2 p)) (v_ts (load s2 p)) (v_str (load s2 p)) (v_arr (load s2 p)) (v_obj (load s2 p)) (v_bool (load s2 p)) ArrayType) as L3
      by (unfold s3; by rewrite load_type).
    assert (left s1 s3 (only p)) as K13. { apply (left_trans _ _ _ _ _ K2 K3). by left. }
    apply NoDup_cons in Nd1 as [Hpn Nd1].
    exists s3, false, (co ++ cr2). split_and!.
    + done.
    + apply own_val; [done|intros _; by rewrite L3|]. assert (slots s3 p = slots s2 p) as ->. { unfold slots, elems_of, spare_of. by rewrite L3. }
      rewrite Hs2. apply (own_list_frame s1 (forallb no_objects l) (forallb no_objects l) s3 _ _ _ K13); [done|done|]. intros y Hy ->. apply Hpn. apply elem_of_app in Hy. apply elem_of_app.
      destruct Hy; [by left|right; auto].
    + apply NoDup_cons. split; [|done]. intros Hy. apply Hpn. apply elem_of_app in Hy. apply elem_of_app. destruct Hy; [by left|right; auto].
    + intros y Hy. apply Hc1. apply elem_of_app in Hy. apply elem_of_app. destruct Hy; [by left|right; auto].
    + apply (left_trans _ _ _ _ _ K1 K13). intros y ->. left. by left.
    + done.
    + assert (LArr p ∉ c) as Hpcc. { intros Hy. destruct (Hcc _ Hy) as [?|H']; [done|]. unfold in_store in Hin. cbn [fresh] in H'. lia. }
      exists c. split_and!; [|by apply NoDup_cons|done].
      apply (crep_arr _ p (load s3 p) ops); [by apply load_some|by rewrite L3|by rewrite L3|by rewrite L3|].
      apply (proj1 (proj2 (crep_frame_all (vs_heap s1) (vs_heap s3)))); [done|].
      apply (kept_same _ _ _ _ (proj1 K13)). apply Forall_forall. intros y Hy ->. done.
  - pose proof (obj_decode m s p [] ltac:(apply Forall_forall; intros; apply clean_decode_all) Hin) as H. rewrite Hob in H. specialize (H eq_refl).
    assert (top_tree (JObj m) = match fields_of_json m with Some ts => Some (TObj (mof_list ts)) | None => None end) as -> by done.
    assert (∀ s', left s s' (own_obj s p) → left s s' (only p)) as Kt.
    { intros s' K. apply (left_weaken _ _ _ _ K). intros c [->|(r & E & _)]; [done|]. congruence. }
    pose proof (obj_slots m s p Hin) as Hss.
    assert (∀ s', left s s' (only p) → slots s' p = slots s p → own s' false (Some p) (LArr p :: cs)) as Hown.
    { intros s' K Es. apply own_val; [exact (in_store_left _ _ _ _ K Hin)|done|]. rewrite Es. apply (own_list_frame s true false _ _ _ _ K); [done|done|]. intros c Hc ->. done. }
    destruct (fields_of_json m) as [ts|].
    + destruct H as (s' & r & kops & c & Hu & Hv' & Hfr & Hg & Hca & Nc & Fc & K). rewrite Hu in Hss. apply Kt in K.
      destruct (crep_assoc_fold _ _ _ _ Hca [] [] [] (crep_assoc_nil _)) as (c' & Hca' & Hsub). cbn [app] in Hsub.
      exists s', false, cs. split_and!; [done|by apply Hown|done|by left| |done|].
      * apply (left_weaken _ _ _ _ K). intros y ->. by left.
      * exists (LMap r :: c'). split_and!.
        -- refine (crep_obj _ p _ r _ _ _ Hv' eq_refl eq_refl Hg _ Hca'). by apply msorted_fold_mset.
        -- apply (NoDup_sub _ (LArr p :: LMap r :: c)); [by do 2 apply submseteq_skip|]. apply NoDup_cons. split; [|done].
           intros Hy. apply elem_of_cons in Hy as [?|Hy]; [done|]. rewrite Forall_forall in Fc. specialize (Fc _ Hy). unfold in_store in Hin. cbn [fresh] in Fc. lia.
        -- intros y Hy. right. apply elem_of_cons in Hy as [->|Hy]; [done|]. rewrite Forall_forall in Fc. apply Fc. exact (elem_of_submseteq _ _ _ Hy Hsub).
    + destruct H as (s' & Hu & K). rewrite Hu in Hss. apply Kt in K. exists s', true, cs. split_and!; [done|by apply Hown|done|by left| |done].
      apply (left_weaken _ _ _ _ K). intros y ->. by left.
Qed.
