(** * The protobuf encoding, independently of the code.

    What the bytes of a message are, by the protobuf encoding rules and
    event.proto: base-128 varints, field tags [number * 8 + wire type],
    length-delimited sub-messages, little-endian doubles. *)
From Verif Require Export Wire.
Local Open Scope Z_scope.

(** A uint64 in base 128, least significant group first, every byte but the last
    with its top bit set; ten groups are enough. *)
Fixpoint varint_n (n : nat) (v : Z) : bytes :=
  match n with
  | O => []
  | S n' => if v <? 128 then [to_byte v] else to_byte (128 + v mod 128) :: varint_n n' (v / 128)
  end.
Definition varint (v : Z) : bytes := varint_n 10 v.

Definition tag (num wt : Z) : bytes := varint (num * 8 + wt).
(** A length-delimited field (lengths are below 2^64, where [u64] is the identity). *)
Definition delimited (num : Z) (payload : bytes) : bytes :=
  tag num 2 ++ varint (u64 (len payload)) ++ payload.
Definition numeric (num : Z) (v : Z) : bytes := tag num 0 ++ varint v.

Arguments varint : simpl never.
Arguments tag : simpl never.
Arguments delimited : simpl never.
Arguments numeric : simpl never.
Arguments u64 : simpl never.
Arguments s64 : simpl never.
Arguments s32 : simpl never.
Arguments le_bytes : simpl never.

(** Arrays, objects and kinds whose values are already encoded. *)
Definition enc_items (items : list bytes) : bytes := concat (map (delimited 1) items).
(** A map field is a message with the key as field 1 and the value, if there is
    one, as field 2. *)
Definition enc_entry (kv : string * option bytes) : bytes :=
  delimited 1 (delimited 1 (list_ascii_of_string kv.1)
               ++ match kv.2 with None => [] | Some v => delimited 2 v end).
(** The entries come in the reverse of the order in which the map is visited. *)
Definition enc_fields (fields : list (string * option bytes)) : bytes :=
  concat (map enc_entry (rev fields)).
Definition enc_opt (x : option bytes) : bytes := match x with None => [] | Some v => v end.
Definition enc_arr0 (a : parr bytes) : bytes := enc_items (map enc_opt (pa_items a)) ++ pa_unrec a.
Definition enc_obj0 (o : pobj bytes) : bytes := enc_fields (po_fields o) ++ po_unrec o.
Definition enc_kind0 (k : pkind bytes) : bytes :=
  match k with
  | KNil => []
  | KNull z => numeric 1 (u64 z)
  | KArray None => []
  | KArray (Some a) => delimited 2 (enc_arr0 a)
  | KBool b => tag 3 0 ++ [to_byte (if b then 1 else 0)]
  | KFloat v => tag 4 1 ++ le_bytes 8 v
  | KInt z => numeric 5 (u64 z)
  | KObject None => []
  | KObject (Some o) => delimited 6 (enc_obj0 o)
  | KString None => []
  | KString (Some s) => delimited 7 s
  | KTime z => numeric 8 (u64 z)
  | KUint z => numeric 9 (u64 z)
  end.

Definition arr_map {A B} (f : A → B) (a : parr A) : parr B :=
  match a with mkPArr items u => mkPArr (map (option_map f) items) u end.
Definition obj_map {A B} (f : A → B) (o : pobj A) : pobj B :=
  match o with mkPObj fields u => mkPObj (map (λ kv, (kv.1, option_map f kv.2)) fields) u end.
Definition kind_map {A B} (f : A → B) (k : pkind A) : pkind B :=
  match k with
  | KNil => KNil
  | KNull z => KNull z
  | KArray a => KArray (option_map (arr_map f) a)
  | KBool b => KBool b
  | KFloat v => KFloat v
  | KInt z => KInt z
  | KObject o => KObject (option_map (obj_map f) o)
  | KString s => KString s
  | KTime z => KTime z
  | KUint z => KUint z
  end.

Fixpoint enc_value (v : pval) : bytes :=
  match v with PVal k u => enc_kind0 (kind_map enc_value k) ++ u end.
Definition enc_kind (k : pkind pval) : bytes := enc_kind0 (kind_map enc_value k).
Definition enc_arr (a : parr pval) : bytes := enc_arr0 (arr_map enc_value a).
Definition enc_obj (o : pobj pval) : bytes := enc_obj0 (obj_map enc_value o).
Definition enc_log (l : plog) : bytes :=
  match lg_object l with None => [] | Some o => delimited 1 (enc_obj o) end ++ lg_unrec l.
Definition enc_wrapper (m : pwrapper) : bytes :=
  match mw_log m with Some (Some l) => delimited 1 (enc_log l) | _ => [] end ++ mw_unrec m.

(** Induction over values: the property may be assumed of the sub-values. *)
Definition opt_all {A} (P : A → Prop) (x : option A) : Prop := match x with None => True | Some v => P v end.
Definition arr_all {A} (P : A → Prop) (a : parr A) : Prop :=
  match a with mkPArr items _ => Forall (opt_all P) items end.
Definition obj_all {A} (P : A → Prop) (o : pobj A) : Prop :=
  match o with mkPObj fields _ => Forall (λ kv, opt_all P kv.2) fields end.
Definition kind_all {A} (P : A → Prop) (k : pkind A) : Prop :=
  match k with
  | KArray (Some a) => arr_all P a
  | KObject (Some o) => obj_all P o
  | _ => True
  end.

Lemma pval_ind' (P : pval → Prop) :
  (∀ k u, kind_all P k → P (PVal k u)) → ∀ v, P v.
Proof.
  intros H. fix IH 1. intros [k u]. apply H.
  destruct k as [|z|[[items ua]|]|b|bits|z|[[fields uo]|]|s|z|z]; simpl; try exact I.
  - induction items as [|x items IHi]; [apply List.Forall_nil|apply List.Forall_cons; [|exact IHi]].
    destruct x as [v|]; [apply IH|exact I].
  - induction fields as [|[k x] fields IHi]; [apply List.Forall_nil|apply List.Forall_cons; [|exact IHi]].
    destruct x as [v|]; [apply IH|exact I].
Qed.
