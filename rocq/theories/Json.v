(** * Events as JSON values: Event and Value MarshalJSON / UnmarshalJSON
      (pkg/event/event.go:140-151, pkg/event/value.go:74-97, 106-157).

    This file is about JSON values; JsonText.v about their text.  A number is the
    decimal m * 10^e it is written as.  Strings are Go strings, any bytes: the text
    layer replaces invalid UTF-8.  [fmt] is how strconv writes a finite double. *)
From Verif Require Export EventSeq Utf8 Float64 JsonTime.
From Coq Require Import Lia.
Local Open Scope Z_scope.

Inductive json : Type :=
| JNull
| JBool (b : bool)
| JNum (neg : bool) (m e : Z)
| JStr (s : string)
| JArr (l : list json)
| JObj (m : list (string * json)).

Section json_ind.
  Variable P : json → Prop.
  Hypothesis HNull : P JNull.
  Hypothesis HBool : ∀ b, P (JBool b).
  Hypothesis HNum : ∀ neg m e, P (JNum neg m e).
  Hypothesis HStr : ∀ s, P (JStr s).
  Hypothesis HArr : ∀ l, Forall P l → P (JArr l).
  Hypothesis HObj : ∀ m, Forall (λ kv, P kv.2) m → P (JObj m).
  Fixpoint json_ind' (j : json) : P j :=
    match j with
    | JNull => HNull
    | JBool b => HBool b
    | JNum neg m e => HNum neg m e
    | JStr s => HStr s
    | JArr l => HArr l ((fix go (l : list json) : Forall P l :=
                           match l with
                           | [] => Forall_nil_2 P
                           | j :: l' => Forall_cons_2 P j l' (json_ind' j) (go l')
                           end) l)
    | JObj m => HObj m ((fix go (m : list (string * json)) : Forall (λ kv, P kv.2) m :=
                           match m with
                           | [] => Forall_nil_2 _
                           | kv :: m' => Forall_cons_2 (λ kv, P kv.2) kv m' (json_ind' kv.2) (go m')
                           end) m)
    end.
End json_ind.

(** ** The model: encoding *)
(** A Go function that returns a value or an error, or panics (here: stack overflow
    or a dangling pointer, neither of which occurs for the events of the theorems). *)
Definition jbind {A B} (x : Outcome (option A)) (f : A → Outcome (option B)) : Outcome (option B) :=
  match x with Ok (Some a) => f a | Ok None => Ok None | Panic => Panic end.
Definition jmapM {A B} (f : A → Outcome (option B)) : list A → Outcome (option (list B)) :=
  fix go l :=
    match l with
    | [] => Ok (Some [])
    | x :: l' => jbind (f x) (λ y, jbind (go l') (λ ys, Ok (Some (y :: ys))))
    end.
Definition jret {A} (a : A) : Outcome (option A) := Ok (Some a).
Definition jint (z : Z) : json := JNum (z <? 0) (Z.abs z) 0.
Definition jfloat (fmt : Z → bool * Z * Z) (b : Z) : json := let '(neg, m, e) := fmt b in JNum neg m e.

(** How deeply arrays and objects are nested. *)
Fixpoint jdepth (j : json) : Z :=
  match j with
  | JArr l => 1 + fold_right (λ j n, Z.max (jdepth j) n) 0 l
  | JObj m => 1 + fold_right (λ (kv : string * json) n, Z.max (let '(_, j) := kv in jdepth j) n) 0 m
  | _ => 0
  end.
(** encoding/json scanner.go maxNestingDepth; the output of a MarshalJSON method is
    scanned too. *)
Definition maxNestingDepth : Z := 10000.
Definition scanned (j : json) : Outcome (option json) := if jdepth j <=? maxNestingDepth then jret j else Ok None.

(** value.go:106-110 MarshalJSON of the value [op] points to, with value() (74-97):
    json.Marshal of a nil pointer, slice or map, of a Null and of an unknown type is
    null; NaN and infinities are an UnsupportedValueError; a map is written in key
    order.  What it returns is scanned by the encoder that called it.  [fuel]: a value
    containing itself overflows the stack. *)
Fixpoint valueJSON (fmt : Z → bool * Z * Z) (fuel : nat) (h : heap) (op : option ptr) : Outcome (option json) :=
  match fuel with
  | O => Panic
  | S f =>
      match op with
      | None => jret JNull
      | Some p =>
          obind (deref h (Some p)) (λ v,
            if N.eqb (v_type v) ArrayType then
              match v_arr v with
              | None => jret JNull
              | Some l => jbind (jmapM (valueJSON fmt f h) l) (λ js, scanned (JArr js))
              end
            else if N.eqb (v_type v) BoolType then jret (JBool (v_bool v))
            else if N.eqb (v_type v) FloatType then
              if finite64 (v_float v) then jret (jfloat fmt (v_float v)) else Ok None
            else if N.eqb (v_type v) IntegerType then jret (jint (v_int v))
            else if N.eqb (v_type v) ObjectType then
              match v_obj v with
              | None => jret JNull
              | Some r =>
                  jbind (jmapM (λ kv : string * option ptr, jbind (valueJSON fmt f h kv.2) (λ j, jret (kv.1, j)))
                           (map_of h (Some r)))
                    (λ js, scanned (JObj js))
              end
            else if N.eqb (v_type v) StringType then jret (JStr (v_str v))
            else if N.eqb (v_type v) TimestampType then jret (JStr (time_text (v_ts v)))
            else if N.eqb (v_type v) UnsignedIntegerType then jret (jint (v_uint v))
            else jret JNull)
      end
  end.
(** json.Marshal of an event: event.go:140-142.  The nil field map is null. *)
Definition MarshalEvent (fmt : Z → bool * Z * Z) (fuel : nat) (h : heap) (e : event) : Outcome (option json) :=
  jbind
    (match fields e with
     | None => jret JNull
     | Some r =>
         jbind (jmapM (λ kv : string * option ptr, jbind (valueJSON fmt fuel h kv.2) (λ j, jret (kv.1, j)))
                  (map_of h (Some r)))
           (λ js, jret (JObj js))
     end)
    scanned.

(** ** The model: decoding *)
Fixpoint osequence {A} (l : list (option A)) : option (list A) :=
  match l with
  | [] => Some []
  | None :: _ => None
  | Some x :: l' => match osequence l' with Some xs => Some (x :: xs) | None => None end
  end.
(** value.go:112-157 UnmarshalJSON, for an element of a []*Value or map[string]*Value:
    encoding/json stores nil for null without calling it; an array or object is
    decoded into a slice or map of *Value (a repeated key overwrites); every number is
    a float64, an error if out of range. *)
Fixpoint value_of_json (j : json) : option tree :=
  match j with
  | JNull => Some TNil
  | JBool b => Some (TBool b)
  | JNum neg m e => match f64_of_dec neg m e with Some b => Some (TFloat b) | None => None end
  | JStr s => Some (TStr s)
  | JArr l => match osequence (map value_of_json l) with Some ts => Some (TArr ts) | None => None end
  | JObj m =>
      match osequence (map (λ kv : string * json, let '(k, j) := kv in
                              match value_of_json j with Some t => Some (k, t) | None => None end) m) with
      | Some ts => Some (TObj (mof_list ts))
      | None => None
      end
  end.
Definition fields_of_json (m : list (string * json)) : option (list (string * tree)) :=
  osequence (map (λ kv : string * json, let '(k, j) := kv in
                    match value_of_json j with Some t => Some (k, t) | None => None end) m).
(** json.Unmarshal into an event: event.go:144-151.  The flag is whether an error is
    returned; the event is then left as it was. *)
Definition UnmarshalEvent (h : heap) (e : event) (j : json) : heap * event * bool :=
  if jdepth j <=? maxNestingDepth then
    match j with
    | JNull => (h, mkEvent None, false)
    | JObj m =>
        match fields_of_json m with
        | Some ts =>
            let '(h1, gm) := alloc_assoc h (mof_list ts) in
            let '(h2, r) := alloc_map_with h1 gm in
            (h2, mkEvent (Some r), false)
        | None => (h, e, true)
        end
    | _ => (h, e, true)
    end
  else (h, e, true).

(** ** Specification *)
(** The JSON value of a tree, if it has one. *)
Fixpoint json_of_tree (fmt : Z → bool * Z * Z) (t : tree) : option json :=
  match t with
  | TNil | TNull | TNilArr | TNilObj => Some JNull
  | TBool b => Some (JBool b)
  | TInt z | TUint z => Some (jint z)
  | TFloat b => if finite64 b then Some (jfloat fmt b) else None
  | TStr s => Some (JStr s)
  | TTime z => Some (JStr (time_text z))
  | TArr l => match osequence (map (json_of_tree fmt) l) with Some js => Some (JArr js) | None => None end
  | TObj m =>
      match osequence (map (λ kv : string * tree, let '(k, t) := kv in
                              match json_of_tree fmt t with Some j => Some (k, j) | None => None end) m) with
      | Some js => Some (JObj js)
      | None => None
      end
  end.

(** ** Proofs *)
Lemma osequence_Forall2 {A} (l : list (option A)) xs : osequence l = Some xs ↔ l = map Some xs.
Proof.
  revert xs. induction l as [|[x|] l IH]; intros xs; simpl.
  - split; [by intros [= <-]|]. by destruct xs.
  - destruct (osequence l) as [ys|].
    + split; [intros [= <-]; simpl; f_equal; by apply IH|]. intros H. destruct xs as [|x' xs]; [done|]. simpl in H.
      injection H as <- H. apply IH in H. congruence.
    + split; [done|]. intros H. destruct xs as [|x' xs]; [done|]. simpl in H. injection H as _ H. by apply IH in H.
  - split; [done|]. intros H. by destruct xs.
Qed.
Lemma osequence_map {A B} (f : A → option B) (g : A → B) l :
  Forall (λ x, f x = Some (g x)) l → osequence (map f l) = Some (map g l).
Proof.
  intros H. apply osequence_Forall2. rewrite map_map. apply map_ext_in. intros x Hx.
  rewrite Forall_forall in H. apply H. by apply elem_of_list_In.
Qed.
Lemma osequence_none {A B} (f : A → option B) l : osequence (map f l) = None ↔ ∃ x, x ∈ l ∧ f x = None.
Proof.
  induction l as [|x l IH]; simpl.
  - split; [done|]. intros (x & Hx & _). by apply elem_of_nil in Hx.
  - destruct (f x) as [y|] eqn:E.
    + destruct (osequence (map f l)) as [ys|].
      * split; [done|]. intros (z & Hz & Hn). apply elem_of_cons in Hz as [->|Hz]; [congruence|].
        assert (Some ys = None) as [=] by (apply IH; eauto).
      * split; [|done]. intros _. destruct (proj1 IH eq_refl) as (z & Hz & Hn). exists z. split; [by apply elem_of_list_further|done].
    + split; [|done]. intros _. exists x. split; [apply elem_of_list_here|done].
Qed.
Definition assoc_json (fmt : Z → bool * Z * Z) (m : gomap tree) : option (list (string * json)) :=
  osequence (map (λ kv : string * tree, let '(k, t) := kv in
                    match json_of_tree fmt t with Some j => Some (k, j) | None => None end) m).

(** Scanning every part is scanning the whole. *)
Definition checked (o : option json) : option json :=
  match o with Some j => if jdepth j <=? maxNestingDepth then Some j else None | None => None end.
Lemma fold_depth_le {A} (d : A → Z) l x : x ∈ l → d x ≤ fold_right (λ j n, Z.max (d j) n) 0 l.
Proof. intros H. induction l as [|y l IH]; [by apply elem_of_nil in H|]. simpl. apply elem_of_cons in H as [->|H]; [lia|]. specialize (IH H). lia. Qed.
Lemma checked_arr l :
  match osequence (map checked l) with Some js => checked (Some (JArr js)) | None => None end =
  checked (match osequence l with Some js => Some (JArr js) | None => None end).
Proof.
  assert (osequence (map checked l) = match osequence l with
    | Some js => if forallb (λ j, jdepth j <=? maxNestingDepth) js then Some js else None | None => None end) as ->.
  { induction l as [|[j|] l IH]; [done| |done]. cbn [map osequence checked]. destruct (osequence l) as [js|].
    - cbn [forallb]. destruct (jdepth j <=? maxNestingDepth); [|done]. rewrite IH. by destruct (forallb _ js).
    - destruct (jdepth j <=? maxNestingDepth); [|done]. by rewrite IH. }
  destruct (osequence l) as [js|]; [|done]. destruct (forallb _ js) eqn:E; [done|]. unfold checked.
  destruct (Z.leb_spec (jdepth (JArr js)) maxNestingDepth) as [Hle|]; [|done]. exfalso. apply not_true_iff_false in E. apply E, forallb_forall.
  intros j Hj%elem_of_list_In. apply Z.leb_le. pose proof (fold_depth_le jdepth js j Hj). simpl in Hle. lia.
Qed.
Lemma checked_obj {A} (f : A → string * option json) l :
  match osequence (map (λ a, match checked (f a).2 with Some j => Some ((f a).1, j) | None => None end) l) with Some js => checked (Some (JObj js)) | None => None end =
  checked (match osequence (map (λ a, match (f a).2 with Some j => Some ((f a).1, j) | None => None end) l) with Some js => Some (JObj js) | None => None end).
Proof.
  assert (osequence (map (λ a, match checked (f a).2 with Some j => Some ((f a).1, j) | None => None end) l) =
    match osequence (map (λ a, match (f a).2 with Some j => Some ((f a).1, j) | None => None end) l) with
    | Some js => if forallb (λ kv : string * json, jdepth kv.2 <=? maxNestingDepth) js then Some js else None | None => None end) as ->.
  { induction l as [|a l IH]; [done|]. cbn [map osequence]. destruct (f a).2 as [j|]; [|done]. cbn [checked].
    set (o := osequence (map (λ a, match (f a).2 with Some j => Some ((f a).1, j) | None => None end) l)) in *. destruct o as [js|].
    - cbn [forallb snd]. destruct (jdepth j <=? maxNestingDepth); [|done]. rewrite IH. by destruct (forallb _ js).
    - destruct (jdepth j <=? maxNestingDepth); [|done]. by rewrite IH. }
  destruct (osequence _) as [js|]; [|done]. destruct (forallb _ js) eqn:E; [done|]. unfold checked.
  destruct (Z.leb_spec (jdepth (JObj js)) maxNestingDepth) as [Hle|]; [|done]. exfalso. apply not_true_iff_false in E. apply E, forallb_forall.
  intros [k j] Hj%elem_of_list_In. apply Z.leb_le. pose proof (fold_depth_le (λ kv : string * json, let '(_, j) := kv in jdepth j) js (k, j) Hj). simpl in *. lia.
Qed.
Definition assoc_checked (fmt : Z → bool * Z * Z) (m : gomap tree) : option (list (string * json)) :=
  osequence (map (λ kv : string * tree, match checked (json_of_tree fmt kv.2) with Some j => Some (kv.1, j) | None => None end) m).
Lemma assoc_checked_eq fmt m :
  match assoc_checked fmt m with Some js => checked (Some (JObj js)) | None => None end =
  checked (match assoc_json fmt m with Some js => Some (JObj js) | None => None end).
Proof.
  unfold assoc_checked, assoc_json. etrans; [exact (checked_obj (λ kv : string * tree, (kv.1, json_of_tree fmt kv.2)) m)|]. cbn [fst snd].
  do 2 f_equal. assert (∀ {A B} (f g : A → B) (l : list A), (∀ x, f x = g x) → map f l = map g l) as Hext by (intros; by apply map_ext).
  erewrite Hext; [reflexivity|]. by intros [k t].
Qed.
Lemma scanned_checked j : scanned j = Ok (checked (Some j)).
Proof. unfold scanned, checked. by destruct (_ <=? _). Qed.
Lemma valueJSON_rep fmt h :
  (∀ op t fp, rep h op t fp → ∃ n, ∀ f, (n ≤ f)%nat → valueJSON fmt f h op = Ok (checked (json_of_tree fmt t))) ∧
  (∀ ops ts fps, rep_list h ops ts fps → ∃ n, ∀ f, (n ≤ f)%nat →
     jmapM (valueJSON fmt f h) ops = Ok (osequence (map checked (map (json_of_tree fmt) ts)))) ∧
  (∀ gm m fps, rep_assoc h gm m fps → ∃ n, ∀ f, (n ≤ f)%nat →
     jmapM (λ kv : string * option ptr, jbind (valueJSON fmt f h kv.2) (λ j, jret (kv.1, j))) gm
       = Ok (assoc_checked fmt m)).
Proof.
  apply rep_mutind.
  - exists 1%nat. intros [|f] Hf; [lia|]. done.
  - intros p v t Hp Hs. exists 1%nat. intros [|f] Hf; [lia|]. cbn [valueJSON deref]. rewrite Hp. cbn [obind].
    unfold scalar_tree in Hs. destruct (v_obj v); [done|].
    destruct (N.eqb_spec (v_type v) NullType) as [->|]; [by simplify_eq|].
    destruct (N.eqb_spec (v_type v) BoolType) as [->|]; [by simplify_eq|].
    destruct (N.eqb_spec (v_type v) FloatType) as [->|].
    { simplify_eq. simpl. destruct (finite64 (v_float v)); [|done]. unfold jfloat. by destruct (fmt _) as [[]]. }
    destruct (N.eqb_spec (v_type v) IntegerType) as [->|]; [by simplify_eq|].
    destruct (N.eqb_spec (v_type v) StringType) as [->|]; [by simplify_eq|].
    destruct (N.eqb_spec (v_type v) TimestampType) as [->|]; [by simplify_eq|].
    destruct (N.eqb_spec (v_type v) UnsignedIntegerType) as [->|]; [by simplify_eq|]. done.
  - intros p v Hp Ht Ho Ha. exists 1%nat. intros [|f] Hf; [lia|]. cbn [valueJSON deref]. rewrite Hp. cbn [obind].
    rewrite Ht. simpl. rewrite Ha. done.
  - intros p v ops ts fps Hp Ht Ho Ha Hr (n & IH). exists (S n). intros [|f] Hf; [lia|].
    cbn [valueJSON deref]. rewrite Hp. cbn [obind]. rewrite Ht, N.eqb_refl, Ha.
    rewrite IH by lia. cbn [json_of_tree]. rewrite <- checked_arr. destruct (osequence _); cbn [jbind]; [apply scanned_checked|done].
  - intros p v Hp Ht Ho. exists 1%nat. intros [|f] Hf; [lia|]. cbn [valueJSON deref]. rewrite Hp. cbn [obind].
    rewrite Ht. simpl. rewrite Ho. done.
  - intros p v r gm m fps Hp Ht Ho Hr Hs Ha (n & IH). exists (S n). intros [|f] Hf; [lia|].
    cbn [valueJSON deref]. rewrite Hp. cbn [obind]. rewrite Ht, Ho.
    change (N.eqb ObjectType ArrayType) with false. change (N.eqb ObjectType BoolType) with false. change (N.eqb ObjectType FloatType) with false.
    change (N.eqb ObjectType IntegerType) with false. change (N.eqb ObjectType ObjectType) with true. cbn [map_of]. rewrite Hr.
    rewrite IH by lia. cbn [json_of_tree]. pose proof (assoc_checked_eq fmt m) as E. unfold assoc_json in E. rewrite <- E.
    destruct (assoc_checked fmt m); cbn [jbind]; [apply scanned_checked|done].
  - exists 0%nat. done.
  - intros op ops t ts fp fps Hr (n1 & IH1) Hl (n2 & IH2). exists (Nat.max n1 n2). intros f Hf.
    simpl. rewrite IH1 by lia. destruct (checked (json_of_tree fmt t)); simpl; [|done]. rewrite IH2 by lia.
    by destruct (osequence _).
  - exists 0%nat. done.
  - intros k op gm t m fp fps Hr (n1 & IH1) Hl (n2 & IH2). exists (Nat.max n1 n2). intros f Hf.
    unfold assoc_checked in *. simpl. rewrite IH1 by lia. destruct (checked (json_of_tree fmt t)); simpl; [|done]. rewrite IH2 by lia.
    by destruct (osequence _).
Qed.

(** Marshalling an event that shows [m]. *)
Lemma MarshalEvent_rep fmt h e m fp : ev_rep h e m fp →
  ∃ n, ∀ f, (n ≤ f)%nat → MarshalEvent fmt f h e =
    Ok (match fields e with
        | None => Some JNull
        | Some _ => match assoc_json fmt m with
                    | Some js => if jdepth (JObj js) <=? maxNestingDepth then Some (JObj js) else None
                    | None => None
                    end
        end).
Proof.
  unfold ev_rep, MarshalEvent. destruct (fields e) as [r|].
  - intros (gm & fps & Hr & _ & Ha & _ & _). destruct (proj2 (proj2 (valueJSON_rep fmt h)) _ _ _ Ha) as (n & Hn).
    exists n. intros f Hf. simpl map_of. rewrite Hr, (Hn f Hf). pose proof (assoc_checked_eq fmt m) as E.
    destruct (assoc_checked fmt m) as [js|]; cbn [jbind jret].
    + change (jbind (jret (JObj js)) scanned) with (scanned (JObj js)). rewrite scanned_checked, E. by destruct (assoc_json fmt m).
    + destruct (assoc_json fmt m) as [js|]; [|done]. unfold checked in E. by destruct (_ <=? _).
  - intros _. exists 0%nat. done.
Qed.

(** Allocating an event's fields. *)
Lemma alloc_assoc_rep m : Forall (λ kv, tsorted kv.2) m → ∀ h0 h1 gm, alloc_assoc h0 m = (h1, gm) →
  stable h0 h1 noW ∧ ∃ fp, rep_assoc h1 gm m fp ∧ NoDup fp ∧ ∀ l, l ∈ fp → EventRefine.fresh h0 l.
Proof.
  induction 1 as [|[k t] m Hs1 Hs2 IHl]; intros h0 h1 ops Hal; simpl in Hal.
  { simplify_eq. split; [apply stable_refl|]. exists [].
    split; [constructor|]. split; [constructor|set_solver]. }
  destruct (alloc_tree h0 t) as [h2 op1] eqn:E1.
  destruct (alloc_assoc h2 m) as [h3 ops1] eqn:E2. simplify_eq.
  destruct (alloc_tree_rep _ _ _ _ Hs1 E1) as (St1 & fp1 & R1 & N1 & F1).
  destruct (IHl _ _ _ E2) as (St2 & fp2 & R2 & N2 & F2).
  split; [by eapply stable_trans|]. exists (fp1 ++ fp2). split; [|split].
  - constructor; [|done]. eapply rep_frame; [done|done|]. auto.
  - apply NoDup_app. split; [done|]. split; [|done]. intros l0 H1 H2.
    eapply not_fresh_allocated; [by eapply rep_alloc|]. by apply F2.
  - intros l0 [Hl0|Hl0]%elem_of_app; [by apply F1|]. eapply fresh_mono; [done|]. by apply F2.
Qed.
Lemma keys_msorted {A B} (m : gomap A) : ∀ (gm : gomap B), mkeys m = mkeys gm → msorted m → msorted gm.
Proof.
  induction m as [|[k t] m IH]; intros [|[k' op] gm] Hk Hms; simpl in *; try done.
  simplify_eq. destruct Hms as [HF Hs]. split; [|by apply IH].
  clear -HF H0. revert gm H0. induction m as [|[k t] m IH]; intros [|[k2 op] gm] Hk; simpl in *; try done.
  simplify_eq. inversion HF; simplify_eq. constructor; [done|]. by apply IH.
Qed.
Lemma alloc_fields_rep h m : msorted m → Forall (λ kv, tsorted kv.2) m →
  ∃ h' r fp, (let '(h1, gm) := alloc_assoc h m in alloc_map_with h1 gm) = (h', r) ∧ stable h h' noW ∧
    ev_rep h' (mkEvent (Some r)) m fp ∧ ∀ l, l ∈ fp → EventRefine.fresh h l.
Proof.
  intros Hm Hs. destruct (alloc_assoc h m) as [h1 gm] eqn:E.
  destruct (alloc_assoc_rep m Hs _ _ _ E) as (St & fp & R & N & F).
  unfold alloc_map_with. set (h2 := mkHeap (hvals h1) (hmaps h1 ++ [gm])).
  assert (stable h1 h2 noW) as St2.
  { repeat split; simpl; rewrite ?app_length; try lia; auto.
    intros r g Hr. left. by apply lookup_app_l_Some. }
  exists h2, (length (hmaps h1)), (LMap (length (hmaps h1)) :: fp). split_and!.
  - done.
  - by eapply stable_trans.
  - unfold ev_rep. simpl. exists gm, fp. split_and!.
    + rewrite lookup_app_r by apply Nat.le_refl. by rewrite Nat.sub_diag.
    + eapply keys_msorted; [|exact Hm]. by eapply rep_assoc_keys.
    + eapply rep_assoc_frame; [done|exact St2|]. auto.
    + done.
    + apply NoDup_cons. split; [|done]. intros Hin.
      assert (allocated h1 (LMap (length (hmaps h1)))) as Hx by (by eapply rep_assoc_alloc). simpl in Hx. lia.
  - intros l0 [->|Hl0]%elem_of_cons; [|by apply F]. simpl. destruct St as (_ & _ & _ & ?). lia.
Qed.

(** Values decoded are canonical. *)
Lemma mset_in {A} k v (m : gomap A) x : In x (mset k v m) → x = (k, v) ∨ In x m.
Proof.
  induction m as [|[k' v'] m IH]; simpl; [intuition congruence|].
  destruct (String.compare k k'); simpl; intuition congruence.
Qed.
Lemma mof_list_in {A} (l : list (string * A)) x : In x (mof_list l) → In x l.
Proof.
  unfold mof_list. assert (∀ m : gomap A, In x (fold_left (λ m kv, mset kv.1 kv.2 m) l m) → In x m ∨ In x l) as H.
  { induction l as [|[k v] l IH]; intros m Hx; simpl in *; [by left|]. destruct (IH _ Hx) as [H|H]; [|by right; right].
    destruct (mset_in _ _ _ _ H) as [->|?]; [right; by left|by left]. }
  intros Hx. by destruct (H [] Hx).
Qed.
Lemma value_of_json_sorted j : ∀ t, value_of_json j = Some t → tsorted t.
Proof.
  induction j as [| |neg m e| |l IH|m IH] using json_ind'; intros t H; simpl in H; try (by simplify_eq).
  - destruct (f64_of_dec neg m e); by simplify_eq.
  - destruct (osequence (map value_of_json l)) as [ts|] eqn:E; [|done]. simplify_eq.
    apply osequence_Forall2 in E. apply tsorted_arr. apply Forall_forall. intros t Ht.
    assert (Some t ∈ map value_of_json l) as Hin by (rewrite E; by apply elem_of_list_fmap_1).
    apply elem_of_list_fmap in Hin as (j & Hj & Hjl). rewrite Forall_forall in IH. by eapply IH.
  - match type of H with match osequence ?x with _ => _ end = _ => destruct (osequence x) as [ts|] eqn:E end; [|done]. simplify_eq.
    apply osequence_Forall2 in E. apply tsorted_obj. split; [apply msorted_mof_list|].
    apply Forall_forall. intros [k t] Ht.
    assert ((k, t) ∈ ts) as Hts by (apply elem_of_list_In, mof_list_in, elem_of_list_In, Ht).
    assert (Some (k, t) ∈ map Some ts) as Hin by (by apply elem_of_list_fmap_1). rewrite <- E in Hin.
    apply elem_of_list_fmap in Hin as ([k' j] & Hj & Hjl). destruct (value_of_json j) as [t'|] eqn:Ej; simplify_eq.
    rewrite Forall_forall in IH. apply (IH _ Hjl _ Ej).
Qed.
Lemma fields_of_json_sorted m ts : fields_of_json m = Some ts → Forall (λ kv, tsorted kv.2) (mof_list ts).
Proof.
  intros H. assert (value_of_json (JObj m) = Some (TObj (mof_list ts))) as H'.
  { simpl. unfold fields_of_json in H. by rewrite H. }
  apply value_of_json_sorted, tsorted_obj in H' as [_ H']. done.
Qed.
(** Decoding a JSON object into an event. *)
Lemma UnmarshalEvent_rep h e m ts : jdepth (JObj m) ≤ maxNestingDepth → fields_of_json m = Some ts →
  ∃ h' e' fp, UnmarshalEvent h e (JObj m) = (h', e', false) ∧ stable h h' noW ∧ ev_rep h' e' (mof_list ts) fp ∧
    ∀ l, l ∈ fp → EventRefine.fresh h l.
Proof.
  intros Hd Hf. unfold UnmarshalEvent. destruct (Z.leb_spec (jdepth (JObj m)) maxNestingDepth); [|lia]. rewrite Hf.
  destruct (alloc_fields_rep h (mof_list ts)) as (h' & r & fp & E & St & R & F);
    [apply msorted_mof_list|by eapply fields_of_json_sorted|].
  destruct (alloc_assoc h (mof_list ts)) as [h1 gm]. rewrite E. eauto 10.
Qed.

(** ** What comes back *)
(** The double nearest to an integer. *)
Definition nearest (z : Z) : Z := match f64_of_Z z with Some b => b | None => 0 end.
(** What a value becomes: null and nil become nil, integers become floats, timestamps
    become text, invalid UTF-8 is replaced. *)
Fixpoint json_returned (t : tree) : tree :=
  match t with
  | TNil | TNull | TNilArr | TNilObj => TNil
  | TBool b => TBool b
  | TInt z | TUint z => TFloat (nearest z)
  | TFloat b => TFloat b
  | TStr s => TStr (fix_utf8 s)
  | TTime z => TStr (time_text z)
  | TArr l => TArr (map json_returned l)
  | TObj m => TObj (mof_list (map (λ kv : string * tree, let '(k, t) := kv in (fix_utf8 k, json_returned t)) m))
  end.
Definition fields_returned (m : gomap tree) : gomap tree :=
  mof_list (map (λ kv : string * tree, let '(k, t) := kv in (fix_utf8 k, json_returned t)) m).
(** No NaN or infinity inside (floats are 64 bits, integers 64-bit ones). *)
Fixpoint jsonable (t : tree) : Prop :=
  match t with
  | TInt z | TUint z => - 2 ^ 63 ≤ z < 2 ^ 64
  | TFloat b => finite64 b = true
  | TArr l => (fix go l := match l with [] => True | t :: l' => jsonable t ∧ go l' end) l
  | TObj m => (fix go (m : list (string * tree)) := match m with [] => True | (_, t) :: m' => jsonable t ∧ go m' end) m
  | _ => True
  end.
(** Values that come back as they were. *)
Fixpoint json_stable (t : tree) : Prop :=
  match t with
  | TNil | TBool _ => True
  | TFloat b => finite64 b = true
  | TStr s => valid_utf8 s
  | TArr l => (fix go l := match l with [] => True | t :: l' => json_stable t ∧ go l' end) l
  | TObj m => (fix go (m : list (string * tree)) :=
                 match m with [] => True | (k, t) :: m' => (valid_utf8 k ∧ json_stable t) ∧ go m' end) m
  | _ => False
  end.
(** Nesting depth of arrays and objects. *)
Fixpoint tdepth (t : tree) : Z :=
  match t with
  | TArr l => 1 + fold_right (λ t n, Z.max (tdepth t) n) 0 l
  | TObj m => 1 + fold_right (λ (kv : string * tree) n, Z.max (let '(_, t) := kv in tdepth t) n) 0 m
  | _ => 0
  end.
(** A way of writing doubles that reads back. *)
Definition fmt_ok (fmt : Z → bool * Z * Z) : Prop :=
  ∀ b, finite64 b = true → let '(neg, m, e) := fmt b in f64_of_dec neg m e = Some b.

(** What the text layer does to a JSON value. *)
Fixpoint jfix (j : json) : json :=
  match j with
  | JStr s => JStr (fix_utf8 s)
  | JArr l => JArr (map jfix l)
  | JObj m => JObj (map (λ kv : string * json, let '(k, j) := kv in (fix_utf8 k, jfix j)) m)
  | _ => j
  end.

Lemma jsonable_arr l : jsonable (TArr l) ↔ Forall jsonable l.
Proof. simpl. induction l as [|t l IH]; [by split|]. rewrite Forall_cons, IH. done. Qed.
Lemma jsonable_obj m : jsonable (TObj m) ↔ Forall (λ kv, jsonable kv.2) m.
Proof. simpl. induction m as [|[k t] m IH]; [by split|]. rewrite Forall_cons, IH. done. Qed.
Lemma json_stable_arr l : json_stable (TArr l) ↔ Forall json_stable l.
Proof. simpl. induction l as [|t l IH]; [by split|]. rewrite Forall_cons, IH. done. Qed.
Lemma json_stable_obj m : json_stable (TObj m) ↔ Forall (λ kv, valid_utf8 kv.1 ∧ json_stable kv.2) m.
Proof. simpl. induction m as [|[k t] m IH]; [by split|]. rewrite Forall_cons, IH. done. Qed.

Lemma jdepth_jfix j : jdepth (jfix j) = jdepth j.
Proof.
  induction j as [| | | |l IH|m IH] using json_ind'; try done; simpl; f_equal.
  - induction IH as [|j l Hj Hl IHl]; simpl; [done|]. by rewrite Hj, IHl.
  - induction IH as [|[k j] l Hj Hl IHl]; simpl in *; [done|]. by rewrite Hj, IHl.
Qed.
Lemma json_of_tree_depth fmt t : ∀ j, json_of_tree fmt t = Some j → jdepth j = tdepth t.
Proof.
  induction t as [| | | | |b| | | |l IH| |m IH] using tree_ind'; intros j H; simpl in H; try (by simplify_eq).
  - destruct (finite64 b); [|done]. simplify_eq. unfold jfloat. by destruct (fmt b) as [[? ?] ?].
  - destruct (osequence (map (json_of_tree fmt) l)) as [js|] eqn:E; [|done]. simplify_eq.
    apply osequence_Forall2 in E. simpl. f_equal. revert js E.
    induction IH as [|t l Ht Hl IHl]; intros [|j js] E; simpl in *; try done. injection E as E1 E2.
    by rewrite (Ht _ E1), (IHl _ E2).
  - match type of H with match osequence ?x with _ => _ end = _ => destruct (osequence x) as [js|] eqn:E end; [|done]. simplify_eq.
    apply osequence_Forall2 in E. simpl. f_equal. revert js E.
    induction IH as [|[k t] l Ht Hl IHl]; intros [|[k' j] js] E; simpl in *; try done. injection E as E1 E2.
    destruct (json_of_tree fmt t) as [j'|]; simplify_eq. by rewrite (Ht _ eq_refl), (IHl _ E2).
Qed.
(** Timestamps are written in ASCII. *)
Lemma digit_ascii n : bz (digit (n mod 10)) < 0x80.
Proof.
  pose proof (Z.mod_pos_bound n 10 ltac:(lia)). unfold digit. change (ascii_of_N _) with (zb (48 + n mod 10)).
  rewrite bz_zb; lia.
Qed.
Lemma appendInt_ascii w : ∀ n, Forall (λ c, bz c < 0x80) (appendInt n w).
Proof.
  induction w as [|w IH]; intros n; simpl; [constructor|]. apply Forall_app. split; [apply IH|].
  constructor; [apply digit_ascii|constructor].
Qed.
Lemma trim_zeros_Forall (P : ascii → Prop) l : Forall P l → Forall P (trim_zeros l).
Proof.
  induction 1 as [|c l Hc Hl IH]; simpl; [constructor|]. destruct (trim_zeros l).
  - destruct (Ascii.eqb _ _); repeat constructor; done.
  - by constructor.
Qed.
Lemma formatNano_ascii n : Forall (λ c, bz c < 0x80) (formatNano n).
Proof.
  unfold formatNano. pose proof (trim_zeros_Forall _ _ (appendInt_ascii 9 n)) as H.
  destruct (trim_zeros (appendInt n 9)); [constructor|]. constructor; [vm_compute; reflexivity|done].
Qed.
Lemma time_text_valid z : valid_utf8 (time_text z).
Proof.
  rewrite time_text_moment. generalize (moment_of z). intros m.
  unfold valid_utf8, moment_text. rewrite list_ascii_of_string_of_list_ascii.
  apply ascii_valid. rewrite !Forall_app.
  split_and!; match goal with
  | |- Forall _ (appendInt _ _) => apply appendInt_ascii
  | |- Forall _ (formatNano _) => apply formatNano_ascii
  | |- _ => apply List.Forall_cons; [vm_compute; reflexivity|apply List.Forall_nil]
  end.
Qed.

Lemma f64_jint z : - 2 ^ 63 ≤ z < 2 ^ 64 → value_of_json (jint z) = Some (TFloat (nearest z)).
Proof.
  intros Hz. destruct (f64_of_Z_some z) as (b & E & _); [rewrite p63, p64 in *; lia|].
  unfold nearest, jint. simpl. unfold f64_of_Z in *. by rewrite E.
Qed.
Lemma nearest_finite z : - 2 ^ 63 ≤ z < 2 ^ 64 → finite64 (nearest z) = true.
Proof.
  intros Hz. destruct (f64_of_Z_some z) as (b & E & Hb); [rewrite p63, p64 in *; lia|]. unfold nearest. by rewrite E.
Qed.
(** Every jsonable value is encoded, and decoded as stated. *)
Lemma json_round fmt t : fmt_ok fmt → jsonable t →
  ∃ j, json_of_tree fmt t = Some j ∧ value_of_json (jfix j) = Some (json_returned t).
Proof.
  intros Hfmt. induction t as [| |b|z|z|b|s|z| |l IH| |m IH] using tree_ind'; intros Hj; try (by eexists).
  - exists (jint z). split; [done|]. by apply f64_jint.
  - exists (jint z). split; [done|]. by apply f64_jint.
  - exists (jfloat fmt b). simpl in *. rewrite Hj. split; [done|]. specialize (Hfmt b Hj). unfold jfloat.
    destruct (fmt b) as [[neg m] e]. simpl. by rewrite Hfmt.
  - exists (JStr (time_text z)). split; [done|]. simpl. by rewrite (proj2 (fix_utf8_iff _) (time_text_valid z)).
  - apply jsonable_arr in Hj.
    assert (∃ js, osequence (map (json_of_tree fmt) l) = Some js ∧ osequence (map value_of_json (map jfix js)) = Some (map json_returned l)) as (js & E1 & E2).
    { clear -IH Hj. induction Hj as [|t l Ht Hl IHl]; [by exists []|].
      apply Forall_cons in IH as [IHt IH]. destruct (IHt Ht) as (j & E1 & E2). destruct (IHl IH) as (js & E3 & E4).
      exists (j :: js). simpl. by rewrite E1, E2, E3, E4. }
    exists (JArr js). simpl. by rewrite E1, E2.
  - apply jsonable_obj in Hj.
    assert (∃ js, assoc_json fmt m = Some js ∧
      fields_of_json (map (λ kv : string * json, let '(k, j) := kv in (fix_utf8 k, jfix j)) js)
        = Some (map (λ kv : string * tree, let '(k, t) := kv in (fix_utf8 k, json_returned t)) m)) as (js & E1 & E2).
    { clear -IH Hj. induction Hj as [|[k t] l Ht Hl IHl]; [by exists []|].
      apply Forall_cons in IH as [IHt IH]. destruct (IHt Ht) as (j & E1 & E2). destruct (IHl IH) as (js & E3 & E4).
      exists ((k, j) :: js). unfold assoc_json, fields_of_json in *. simpl in *. by rewrite E1, E2, E3, E4. }
    exists (JObj js). simpl. unfold assoc_json, fields_of_json in *. by rewrite E1, E2.
Qed.
Lemma fields_round fmt m : fmt_ok fmt → Forall (λ kv, jsonable kv.2) m →
  ∃ js ts, assoc_json fmt m = Some js ∧ jdepth (JObj js) = tdepth (TObj m) ∧
    fields_of_json (map (λ kv : string * json, let '(k, j) := kv in (fix_utf8 k, jfix j)) js) = Some ts ∧
    mof_list ts = fields_returned m.
Proof.
  intros Hfmt Hm. destruct (json_round fmt (TObj m) Hfmt (proj2 (jsonable_obj m) Hm)) as (j & E1 & E2).
  pose proof (json_of_tree_depth _ _ _ E1) as Hd. simpl in E1. fold (assoc_json fmt m) in E1.
  destruct (assoc_json fmt m) as [js|]; [|done]. simplify_eq.
  simpl in E2. fold (fields_of_json (map (λ kv : string * json, let '(k, j) := kv in (fix_utf8 k, jfix j)) js)) in E2.
  destruct (fields_of_json _) as [ts|] eqn:Ef; [|done]. injection E2 as E2. exists js, ts. split_and!; [done|exact Hd|done|exact E2].
Qed.
(** NaN and infinities, and nothing else, are refused. *)
Fixpoint has_nonfinite (t : tree) : Prop :=
  match t with
  | TFloat b => finite64 b = false
  | TArr l => (fix go l := match l with [] => False | t :: l' => has_nonfinite t ∨ go l' end) l
  | TObj m => (fix go (m : list (string * tree)) := match m with [] => False | (_, t) :: m' => has_nonfinite t ∨ go m' end) m
  | _ => False
  end.
Lemma has_nonfinite_arr l : has_nonfinite (TArr l) ↔ ∃ t, t ∈ l ∧ has_nonfinite t.
Proof.
  simpl. induction l as [|t l IH].
  - split; [done|]. intros (t & Ht & _). by apply elem_of_nil in Ht.
  - rewrite IH. split; [intros [H|(x & ? & ?)]; [exists t|exists x]; split; auto; [left|by right]|].
    intros (x & Hx & H). apply elem_of_cons in Hx as [->|Hx]; [by left|right; eauto].
Qed.
Lemma has_nonfinite_obj m : has_nonfinite (TObj m) ↔ ∃ kv, kv ∈ m ∧ has_nonfinite kv.2.
Proof.
  simpl. induction m as [|[k t] l IH].
  - split; [done|]. intros (t & Ht & _). by apply elem_of_nil in Ht.
  - rewrite IH. split; [intros [H|(x & ? & ?)]; [exists (k, t)|exists x]; split; auto; [left|by right]|].
    intros (x & Hx & H). apply elem_of_cons in Hx as [->|Hx]; [by left|right; eauto].
Qed.
Lemma json_of_tree_none fmt t : json_of_tree fmt t = None ↔ has_nonfinite t.
Proof.
  induction t as [| | | | |b| | | |l IH| |m IH] using tree_ind'; try done.
  - simpl. destruct (finite64 b); done.
  - rewrite has_nonfinite_arr. rewrite Forall_forall in IH. simpl. transitivity (∃ t, t ∈ l ∧ json_of_tree fmt t = None).
    + rewrite <- osequence_none. by destruct (osequence _).
    + split; intros (t & Ht & H); exists t; (split; [done|]); by apply IH.
  - rewrite has_nonfinite_obj. rewrite Forall_forall in IH. simpl.
    transitivity (∃ kv, kv ∈ m ∧ (let '(k, t) := kv in match json_of_tree fmt t with Some j => Some (k, j) | None => None end) = None).
    + rewrite <- osequence_none. by destruct (osequence _).
    + split; intros ([k t] & Ht & H); exists (k, t); (split; [done|]); specialize (IH _ Ht); simpl in *.
      * apply IH. by destruct (json_of_tree fmt t).
      * by rewrite (proj2 IH).
Qed.
Lemma assoc_json_none fmt m : assoc_json fmt m = None ↔ has_nonfinite (TObj m).
Proof. rewrite <- (json_of_tree_none fmt). simpl. fold (assoc_json fmt m). by destruct (assoc_json fmt m). Qed.

(** Stable values come back; whatever comes back is stable. *)
Lemma json_stable_returned t : json_stable t → tsorted t → json_returned t = t.
Proof.
  induction t as [| |b|z|z|b|s|z| |l IH| |m IH] using tree_ind'; try done.
  - intros H _. simpl in *. by rewrite (proj2 (fix_utf8_iff s) H).
  - rewrite json_stable_arr, tsorted_arr. intros Hs Ht. simpl. f_equal. rewrite <- (map_id l) at 2.
    apply map_ext_in. intros t Hin. apply elem_of_list_In in Hin. rewrite Forall_forall in IH, Hs, Ht. auto.
  - rewrite json_stable_obj, tsorted_obj. intros Hs [Hm Ht]. simpl. f_equal.
    transitivity (mof_list m); [|by apply mof_list_sorted]. f_equal. rewrite <- (map_id m) at 2.
    apply map_ext_in. intros [k t] Hin. apply elem_of_list_In in Hin. rewrite Forall_forall in IH, Hs, Ht.
    destruct (Hs _ Hin) as [Hk Hst]. simpl in *. rewrite (proj2 (fix_utf8_iff k) Hk).
    pose proof (IH _ Hin Hst (Ht _ Hin)) as E. simpl in E. by rewrite E.
Qed.
Lemma json_returned_stable t : jsonable t → json_stable (json_returned t) ∧ tsorted (json_returned t).
Proof.
  induction t as [| |b|z|z|b|s|z| |l IH| |m IH] using tree_ind'; try done.
  - intros H. split; [by apply nearest_finite|done].
  - intros H. split; [by apply nearest_finite|done].
  - intros _. split; [apply fix_utf8_valid|done].
  - intros _. split; [apply time_text_valid|done].
  - rewrite jsonable_arr. intros Hj. simpl json_returned. rewrite json_stable_arr, tsorted_arr, !Forall_forall.
    rewrite Forall_forall in IH, Hj. split; intros t Ht; apply elem_of_list_fmap in Ht as (t' & -> & Ht'); by apply IH; [|apply Hj].
  - rewrite jsonable_obj. intros Hj. simpl json_returned. rewrite json_stable_obj, tsorted_obj, !Forall_forall.
    rewrite Forall_forall in IH, Hj.
    assert (∀ kv, kv ∈ mof_list (map (λ kv : string * tree, let '(k, t) := kv in (fix_utf8 k, json_returned t)) m) →
      ∃ kv', kv' ∈ m ∧ kv = (fix_utf8 kv'.1, json_returned kv'.2)) as Hin.
    { intros kv Hkv. apply elem_of_list_In, mof_list_in, elem_of_list_In, elem_of_list_fmap in Hkv as ([k t] & -> & Hkv). by exists (k, t). }
    split_and!.
    + intros kv Hkv. destruct (Hin _ Hkv) as (kv' & Hkv' & ->). split; [apply fix_utf8_valid|]. simpl. apply IH; [done|by apply Hj].
    + apply msorted_mof_list.
    + intros kv Hkv. destruct (Hin _ Hkv) as (kv' & Hkv' & ->). simpl. apply IH; [done|by apply Hj].
Qed.
