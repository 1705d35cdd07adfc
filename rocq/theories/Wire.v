(** * The protobuf wire codec: pkg/serialization/protobuf/event.pb.go.

    Bytes are [ascii]; Go's [int] (64 bit) and [uint64] are [Z] with the wrapping
    made explicit by [s64], [u64].  Buffers are lists; every index and slice
    expression is checked and gives [Panic] when out of range.  Simplifications:
    capacities are not modelled (a slice expression beyond the length panics, even
    where Go would extend into the capacity), a nil map/slice and an empty one are
    the same except for [Value_String_.String_] (where the code distinguishes them),
    sizes are computed without wrapping (they are bounded by memory), and stack and
    memory exhaustion are not modelled. *)
From Verif Require Export GoMap.
From Coq Require Export Ascii ZArith.
Local Open Scope Z_scope.

Definition bytes : Type := list ascii.
Definition len (d : bytes) : Z := Z.of_nat (length d).
Definition bval (b : ascii) : Z := Z.of_N (N_of_ascii b).
(** uint8(z) *)
Definition to_byte (z : Z) : ascii := ascii_of_N (Z.to_N (z mod 256)).
(** uint64(z), int64(z) / int(z), int32(z) *)
Definition u64 (z : Z) : Z := z mod 2^64.
Definition s64 (z : Z) : Z := (z + 2^63) mod 2^64 - 2^63.
Definition s32 (z : Z) : Z := (z + 2^31) mod 2^32 - 2^31.

(** ** Messages: event.pb.go:70-75 (MessageWrapper), 123-125 (MessageWrapper_Log),
    Log, Value and its kinds, ValueArray, ValueObject.  Every message keeps its
    XXX_unrecognized bytes.  [po_fields] lists the map entries in some order: the
    order in which [range] visits them. *)
Record parr (A : Type) : Type := mkPArr { pa_items : list (option A); pa_unrec : bytes }.
Record pobj (A : Type) : Type := mkPObj { po_fields : list (string * option A); po_unrec : bytes }.
Arguments mkPArr {A}. Arguments pa_items {A}. Arguments pa_unrec {A}.
Arguments mkPObj {A}. Arguments po_fields {A}. Arguments po_unrec {A}.

Inductive pkind (A : Type) : Type :=
| KNil                              (* Kind == nil *)
| KNull (z : Z)                     (* Value_Null *)
| KArray (a : option (parr A))      (* Value_Array *)
| KBool (b : bool)                  (* Value_Boolean *)
| KFloat (bits : Z)                 (* Value_Float, math.Float64bits *)
| KInt (z : Z)                      (* Value_Integer *)
| KObject (o : option (pobj A))     (* Value_Object *)
| KString (s : option bytes)        (* Value_String_ *)
| KTime (z : Z)                     (* Value_Timestamp *)
| KUint (z : Z).                    (* Value_UnsignedInteger *)
Arguments KNil {A}. Arguments KNull {A}. Arguments KArray {A}. Arguments KBool {A}.
Arguments KFloat {A}. Arguments KInt {A}. Arguments KObject {A}. Arguments KString {A}.
Arguments KTime {A}. Arguments KUint {A}.

Inductive pval : Type := PVal (k : pkind pval) (u : bytes).

Record plog : Type := mkPLog { lg_object : option (pobj pval); lg_unrec : bytes }.
(** [mw_log]: the outer option is [Message != nil], the inner one [Log != nil]. *)
Record pwrapper : Type := mkPWrapper { mw_log : option (option plog); mw_unrec : bytes }.

(** ** Size: event.pb.go:921-1124 *)
(** sovEvent, 1122-1124; [math_bits.Len64 x] is [Z.log2 x + 1] for [x > 0]. *)
Definition sov (x : Z) : Z := (Z.log2 (Z.lor x 1) + 1 + 6) / 7.

Definition zsum (l : list Z) : Z := fold_right Z.add 0 l.

Section sizes.
  Context {A : Type} (size : A → Z).
  (** a nil *Value has size 0: 966-968 *)
  Definition size_opt (x : option A) : Z := match x with None => 0 | Some v => size v end.
  (** ValueArray.Size, 1077-1093 *)
  Definition size_arr (a : parr A) : Z :=
    match a with
    | mkPArr items u => zsum (map (λ e, let l := size_opt e in 1 + l + sov (u64 l)) items) + len u
    end.
  (** ValueObject.Size, 1095-1120 *)
  Definition size_entry (kv : string * option A) : Z :=
    let l := match kv.2 with None => 0 | Some v => let l := size v in l + (1 + sov (u64 l)) end in
    let k := Z.of_nat (String.length kv.1) in
    let e := 1 + k + sov (u64 k) + l in
    e + 1 + sov (u64 e).
  Definition size_obj (o : pobj A) : Z :=
    match o with
    | mkPObj fields u => zsum (map size_entry fields) + len u
    end.
  (** The Size methods of the kinds, 980-1075. *)
  Definition size_kind (k : pkind A) : Z :=
    match k with
    | KNil => 0
    | KNull z => 1 + sov (u64 z)
    | KArray None => 0
    | KArray (Some a) => let l := size_arr a in 1 + l + sov (u64 l)
    | KBool _ => 2
    | KFloat _ => 9
    | KInt z => 1 + sov (u64 z)
    | KObject None => 0
    | KObject (Some o) => let l := size_obj o in 1 + l + sov (u64 l)
    | KString None => 0
    | KString (Some s) => let l := len s in 1 + l + sov (u64 l)
    | KTime z => 1 + sov (u64 z)
    | KUint z => 1 + sov (u64 z)
    end.
End sizes.

(** Value.Size, 965-978 *)
Fixpoint size_value (v : pval) : Z :=
  match v with PVal k u => size_kind size_value k + len u end.
(** Log.Size, 949-963 *)
Definition size_log (l : plog) : Z :=
  match lg_object l with
  | None => 0
  | Some o => let l := size_obj size_value o in 1 + l + sov (u64 l)
  end + len (lg_unrec l).
(** MessageWrapper_Log.Size, 936-947, and MessageWrapper.Size, 921-934 *)
Definition size_wrapper_log (l : option plog) : Z :=
  match l with None => 0 | Some l => let n := size_log l in 1 + n + sov (u64 n) end.
Definition size_wrapper (m : pwrapper) : Z :=
  match mw_log m with None => 0 | Some l => size_wrapper_log l end + len (mw_unrec m).

(** ** Marshal: event.pb.go:537-919.  Buffers are written from the end. *)
(** [dAtA[i] = b] *)
Definition put_at (d : bytes) (i : Z) (b : ascii) : Outcome bytes :=
  if (0 <=? i)%Z && (i <? len d)%Z then Ok (<[Z.to_nat i := b]> d) else Panic.

(** [copy(dAtA[i:], src)] *)
Definition copy_at (d : bytes) (i : Z) (src : bytes) : Outcome bytes :=
  if (0 <=? i)%Z && (i <=? len d)%Z
  then let n := Nat.min (length d - Z.to_nat i)%nat (length src) in
       Ok (take (Z.to_nat i) d ++ take n src ++ drop (Z.to_nat i + n)%nat d)
  else Panic.

(** A call writing to [dAtA[a:b]]. *)
Definition sub_write (d : bytes) (a b : Z) (f : bytes → Outcome (bytes * Z)) : Outcome (bytes * Z) :=
  if (0 <=? a)%Z && (a <=? b)%Z && (b <=? len d)%Z
  then match f (take (Z.to_nat b - Z.to_nat a)%nat (drop (Z.to_nat a) d)) with
       | Panic => Panic
       | Ok (d', n) => Ok (take (Z.to_nat a) d ++ d' ++ drop (Z.to_nat b) d, n)
       end
  else Panic.

(** encodeVarintEvent, 909-919; the loop runs at most ten times for a uint64. *)
Fixpoint varint_loop (fuel : nat) (d : bytes) (off v : Z) : Outcome bytes :=
  match fuel with
  | O => Panic
  | S f =>
      if (v >=? 128)%Z
      then match put_at d off (to_byte (Z.lor (Z.land v 127) 128)) with
           | Panic => Panic
           | Ok d' => varint_loop f d' (off + 1) (Z.shiftr v 7)
           end
      else put_at d off (to_byte v)
  end.
Definition encodeVarint (d : bytes) (off v : Z) : Outcome (bytes * Z) :=
  let off := (off - sov v)%Z in
  match varint_loop 10 d off v with Panic => Panic | Ok d' => Ok (d', off) end.

(** [i--; dAtA[i] = b] *)
Definition put_tag (x : Outcome (bytes * Z)) (b : Z) : Outcome (bytes * Z) :=
  match x with
  | Panic => Panic
  | Ok (d, i) => match put_at d (i - 1) (to_byte b) with Panic => Panic | Ok d' => Ok (d', i - 1)%Z end
  end.

(** [size, err := x.MarshalToSizedBuffer(dAtA[:i]); i -= size;
     i = encodeVarintEvent(dAtA, i, uint64(size)); i--; dAtA[i] = tag] *)
Definition put_msg (d : bytes) (i : Z) (tag : Z) (f : bytes → Outcome (bytes * Z)) : Outcome (bytes * Z) :=
  match sub_write d 0 i f with
  | Panic => Panic
  | Ok (d1, size) => put_tag (encodeVarint d1 (i - size) (u64 size)) tag
  end.

(** [i -= len(s); copy(dAtA[i:], s)] *)
Definition put_bytes (d : bytes) (i : Z) (s : bytes) : Outcome (bytes * Z) :=
  match copy_at d (i - len s) s with Panic => Panic | Ok d' => Ok (d', i - len s)%Z end.

(** [return len(dAtA) - i, nil] *)
Definition done_at (n : Z) (x : Outcome (bytes * Z)) : Outcome (bytes * Z) :=
  match x with Panic => Panic | Ok (d, i) => Ok (d, n - i)%Z end.

(** LittleEndian.PutUint64(dAtA[i:], v): the eight bytes of [v]. *)
Fixpoint le_bytes (n : nat) (v : Z) : bytes :=
  match n with O => [] | S n' => to_byte v :: le_bytes n' (Z.shiftr v 8) end.
Definition put_fixed64 (d : bytes) (i v : Z) : Outcome (bytes * Z) :=
  let i := (i - 8)%Z in
  if (0 <=? i)%Z && (i + 8 <=? len d)%Z
  then Ok (take (Z.to_nat i) d ++ le_bytes 8 v ++ drop (Z.to_nat i + 8)%nat d, i) else Panic.

Section marshal.
  Context {A : Type} (msb : A → bytes → Outcome (bytes * Z)).

  (** A method call on a nil *Value: reading m.XXX_unrecognized panics. *)
  Definition msb_opt (x : option A) (d : bytes) : Outcome (bytes * Z) :=
    match x with None => Panic | Some v => msb v d end.

  (** ValueArray.MarshalToSizedBuffer, 835-861: the last item is written first. *)
  Fixpoint put_items (items : list (option A)) (d : bytes) (i : Z) : Outcome (bytes * Z) :=
    match items with
    | [] => Ok (d, i)
    | x :: items' =>
        match put_items items' d i with
        | Panic => Panic
        | Ok (d1, i1) => put_msg d1 i1 0xa (msb_opt x)
        end
    end.
  Definition msb_arr (a : parr A) (d : bytes) : Outcome (bytes * Z) :=
    match a with
    | mkPArr items u =>
        done_at (len d)
          (match put_bytes d (len d) u with
           | Panic => Panic
           | Ok (d1, i1) => put_items items d1 i1
           end)
    end.

  (** ValueObject.MarshalToSizedBuffer, 878-907: the entry visited first is written
      last in the buffer. *)
  Definition put_entry (kv : string * option A) (d : bytes) (i : Z) : Outcome (bytes * Z) :=
    let base := i in
    match (match kv.2 with None => Ok (d, i) | Some v => put_msg d i 0x12 (msb v) end) with
    | Panic => Panic
    | Ok (d1, i1) =>
        let k := list_ascii_of_string kv.1 in
        match put_bytes d1 i1 k with
        | Panic => Panic
        | Ok (d2, i2) =>
            match put_tag (encodeVarint d2 i2 (u64 (len k))) 0xa with
            | Panic => Panic
            | Ok (d3, i3) => put_tag (encodeVarint d3 i3 (u64 (base - i3))) 0xa
            end
        end
    end.
  Fixpoint put_fields (l : list (string * option A)) (d : bytes) (i : Z) : Outcome (bytes * Z) :=
    match l with
    | [] => Ok (d, i)
    | kv :: l' =>
        match put_entry kv d i with Panic => Panic | Ok (d1, i1) => put_fields l' d1 i1 end
    end.
  Definition msb_obj (o : pobj A) (d : bytes) : Outcome (bytes * Z) :=
    match o with
    | mkPObj fields u =>
        done_at (len d)
          (match put_bytes d (len d) u with
           | Panic => Panic
           | Ok (d1, i1) => put_fields fields d1 i1
           end)
    end.

  (** The MarshalToSizedBuffer methods of the kinds, 656-817. *)
  Definition msb_kind (k : pkind A) (d : bytes) : Outcome (bytes * Z) :=
    let i := len d in
    done_at i
      match k with
      | KNil => Ok (d, i)
      | KNull z => put_tag (encodeVarint d i (u64 z)) 0x8
      | KArray None => Ok (d, i)
      | KArray (Some a) => put_msg d i 0x12 (msb_arr a)
      | KBool b => put_tag (put_tag (Ok (d, i)) (if b then 1 else 0)) 0x18
      | KFloat v => put_tag (put_fixed64 d i v) 0x21
      | KInt z => put_tag (encodeVarint d i (u64 z)) 0x28
      | KObject None => Ok (d, i)
      | KObject (Some o) => put_msg d i 0x32 (msb_obj o)
      | KString None => Ok (d, i)
      | KString (Some s) =>
          match put_bytes d i s with
          | Panic => Panic
          | Ok (d1, i1) => put_tag (encodeVarint d1 i1 (u64 (len s))) 0x3a
          end
      | KTime z => put_tag (encodeVarint d i (u64 z)) 0x40
      | KUint z => put_tag (encodeVarint d i (u64 z)) 0x48
      end.
End marshal.

(** [i -= size; x.MarshalTo(dAtA[i:])] with MarshalTo = MarshalToSizedBuffer(dAtA[:size]) *)
Definition put_sized (d : bytes) (i size : Z) (f : bytes → Outcome (bytes * Z)) : Outcome (bytes * Z) :=
  match sub_write d (i - size) (len d) (λ s, sub_write s 0 size f) with
  | Panic => Panic
  | Ok (d', _) => Ok (d', i - size)%Z
  end.

(** Value.MarshalToSizedBuffer, 635-654 *)
Fixpoint msb_value (v : pval) (d : bytes) : Outcome (bytes * Z) :=
  match v with
  | PVal k u =>
      done_at (len d)
        (match put_bytes d (len d) u with
         | Panic => Panic
         | Ok (d1, i1) =>
             match k with
             | KNil => Ok (d1, i1)
             | _ => put_sized d1 i1 (size_kind size_value k) (msb_kind msb_value k)
             end
         end)
  end.

(** Log.MarshalToSizedBuffer, 595-617 *)
Definition msb_log (l : plog) (d : bytes) : Outcome (bytes * Z) :=
  done_at (len d)
    (match put_bytes d (len d) (lg_unrec l) with
     | Panic => Panic
     | Ok (d1, i1) =>
         match lg_object l with
         | None => Ok (d1, i1)
         | Some o => put_msg d1 i1 0xa (msb_obj msb_value o)
         end
     end).

(** MessageWrapper_Log.MarshalToSizedBuffer, 578-593, and
    MessageWrapper.MarshalToSizedBuffer, 552-571 *)
Definition msb_wrapper_log (l : option plog) (d : bytes) : Outcome (bytes * Z) :=
  done_at (len d)
    (match l with None => Ok (d, len d) | Some l => put_msg d (len d) 0xa (msb_log l) end).
Definition msb_wrapper (m : pwrapper) (d : bytes) : Outcome (bytes * Z) :=
  done_at (len d)
    (match put_bytes d (len d) (mw_unrec m) with
     | Panic => Panic
     | Ok (d1, i1) =>
         match mw_log m with
         | None => Ok (d1, i1)
         | Some l => put_sized d1 i1 (size_wrapper_log l) (msb_wrapper_log l)
         end
     end).

(** [dAtA = make([]byte, size); n, err := m.MarshalToSizedBuffer(dAtA[:size]);
    return dAtA[:n]] : MessageWrapper.Marshal, 537-545; the others are the same. *)
Definition marshal_with {M} (size : M → Z) (msb : M → bytes → Outcome (bytes * Z)) (m : M)
  : Outcome bytes :=
  match msb m (replicate (Z.to_nat (size m)) "000"%char) with
  | Panic => Panic
  | Ok (d, n) => if (0 <=? n)%Z && (n <=? len d)%Z then Ok (take (Z.to_nat n) d) else Panic
  end.
Definition Marshal (m : pwrapper) : Outcome bytes := marshal_with size_wrapper msb_wrapper m.
Definition MarshalLog (m : plog) : Outcome bytes := marshal_with size_log msb_log m.
Definition MarshalValue (m : pval) : Outcome bytes := marshal_with size_value msb_value m.

(** ** Unmarshal: event.pb.go:1130-1922 *)
Inductive perr : Type :=
| EIntOverflow | EUnexpectedEOF | EInvalidLength | EEndGroup | EEndGroupNonGroup
| EIllegalTag (num : Z) (wire : Z) | EWrongWireType (t : Z) | EIllegalWireType (t : Z).

(** [RPanic] also stands for running out of fuel, so proving that it cannot happen
    proves termination too. *)
Inductive res (A : Type) : Type := ROk (a : A) | RErr (e : perr) | RPanic.
Arguments ROk {A}. Arguments RErr {A}. Arguments RPanic {A}.

Definition rbind {A B} (x : res A) (f : A → res B) : res B :=
  match x with ROk a => f a | RErr e => RErr e | RPanic => RPanic end.

(** [dAtA[i]] *)
Definition byte_at (d : bytes) (i : Z) : res ascii :=
  if (0 <=? i)%Z
  then match nth_error d (Z.to_nat i) with Some b => ROk b | None => RPanic end else RPanic.
(** [dAtA[a:b]] *)
Definition slice (d : bytes) (a b : Z) : res bytes :=
  if (0 <=? a)%Z && (a <=? b)%Z && (b <=? len d)%Z
  then ROk (take (Z.to_nat b - Z.to_nat a)%nat (drop (Z.to_nat a) d)) else RPanic.

(** The varint loop, e.g. 1136-1149: [shift] grows by 7; at 64 it fails, so it runs
    at most ten times.  The code accumulates into a uint64, int, int64 or int32;
    here always into a uint64, converted afterwards. *)
Fixpoint varint_from (fuel : nat) (d : bytes) (i shift acc : Z) : res (Z * Z) :=
  match fuel with
  | O => RPanic
  | S f =>
      if (shift >=? 64)%Z then RErr EIntOverflow
      else if (i >=? len d)%Z then RErr EUnexpectedEOF
      else rbind (byte_at d i) (λ b,
        let acc := Z.lor acc (u64 (Z.shiftl (Z.land (bval b) 127) shift)) in
        if (bval b <? 128)%Z then ROk (acc, i + 1)%Z
        else varint_from f d (i + 1) (shift + 7) acc)
  end.
Definition read_varint (d : bytes) (i : Z) : res (Z * Z) := varint_from 11 d i 0 0.

(** Reading a length and checking it, e.g. 1162-1186: the start and the end of the
    bytes that follow. *)
Definition read_len (d : bytes) (i : Z) : res (Z * Z) :=
  rbind (read_varint d i) (λ '(v, i),
    let n := s64 v in
    if (n <? 0)%Z then RErr EInvalidLength
    else
      let post := s64 (i + n) in
      if (post <? 0)%Z then RErr EInvalidLength
      else if (post >? len d)%Z then RErr EUnexpectedEOF
      else ROk (i, post)).

(** skipEvent, 1839-1922 *)
Fixpoint skip_loop (fuel : nat) (d : bytes) (i : Z) (depth : nat) : res Z :=
  match fuel with
  | O => RPanic
  | S f =>
      if (i <? len d)%Z then
        rbind (read_varint d i) (λ '(wire, i),
          let wt := Z.land wire 7 in
          let continue (i : Z) (depth : nat) : res Z :=
            if (i <? 0)%Z then RErr EInvalidLength
            else match depth with O => ROk i | _ => skip_loop f d i depth end in
          if (wt =? 0)%Z then rbind (read_varint d i) (λ '(_, i), continue i depth)
          else if (wt =? 1)%Z then continue (s64 (i + 8)) depth
          else if (wt =? 2)%Z then
            rbind (read_varint d i) (λ '(v, i),
              let n := s64 v in
              if (n <? 0)%Z then RErr EInvalidLength else continue (s64 (i + n)) depth)
          else if (wt =? 3)%Z then continue i (S depth)
          else if (wt =? 4)%Z then
            match depth with O => RErr EEndGroup | S depth' => continue i depth' end
          else if (wt =? 5)%Z then continue (s64 (i + 4)) depth
          else RErr (EIllegalWireType wt))
      else RErr EUnexpectedEOF
  end.
Definition skipEvent (d : bytes) : res Z := skip_loop (S (length d)) d 0 0.

(** The default branch, e.g. 1196-1209: the unknown field and where it ends. *)
Definition read_unknown (d : bytes) (i limit : Z) : res (bytes * Z) :=
  rbind (slice d i (len d)) (λ rest,
    rbind (skipEvent rest) (λ n,
      if (n <? 0)%Z || (s64 (i + n) <? 0)%Z then RErr EInvalidLength
      else if (s64 (i + n) >? limit)%Z then RErr EUnexpectedEOF
      else rbind (slice d i (s64 (i + n))) (λ u, ROk (u, s64 (i + n))))).

(** The head of a field, e.g. 1134-1157: field number, wire type and position. *)
Definition read_head (d : bytes) (i : Z) : res (Z * Z * Z) :=
  rbind (read_varint d i) (λ '(wire, i),
    let num := s32 (Z.shiftr wire 3) in
    let wt := Z.land wire 7 in
    if (wt =? 4)%Z then RErr EEndGroupNonGroup
    else if (num <=? 0)%Z then RErr (EIllegalTag num wire)
    else ROk (num, wt, i)).

(** LittleEndian.Uint64 *)
Fixpoint le_value (d : bytes) : Z :=
  match d with [] => 0 | b :: d' => bval b + 256 * le_value d' end.

(** Value.Unmarshal 1305-1570, ValueArray.Unmarshal 1572-1656, ValueObject.Unmarshal
    1658-1837 and its loop over one map entry 1723-1818.  [fuel] bounds loop
    iterations and recursion together. *)
Fixpoint um_value (fuel : nat) (d : bytes) (i : Z) (k : pkind pval) (u : bytes) {struct fuel} : res pval :=
  match fuel with
  | O => RPanic
  | S f =>
      if (i <? len d)%Z then
        rbind (read_head d i) (λ '(num, wt, j),
          if (num =? 1)%Z then
            if negb (wt =? 0)%Z then RErr (EWrongWireType wt)
            else rbind (read_varint d j) (λ '(v, j), um_value f d j (KNull (s32 v)) u)
          else if (num =? 2)%Z then
            if negb (wt =? 2)%Z then RErr (EWrongWireType wt)
            else rbind (read_len d j) (λ '(a, b), rbind (slice d a b) (λ s,
                   rbind (um_array f s 0 [] []) (λ x, um_value f d b (KArray (Some x)) u)))
          else if (num =? 3)%Z then
            if negb (wt =? 0)%Z then RErr (EWrongWireType wt)
            else rbind (read_varint d j) (λ '(v, j), um_value f d j (KBool (negb (s64 v =? 0)%Z)) u)
          else if (num =? 4)%Z then
            if negb (wt =? 1)%Z then RErr (EWrongWireType wt)
            else if (j + 8 >? len d)%Z then RErr EUnexpectedEOF
            else rbind (slice d j (j + 8)) (λ s, um_value f d (j + 8) (KFloat (le_value s)) u)
          else if (num =? 5)%Z then
            if negb (wt =? 0)%Z then RErr (EWrongWireType wt)
            else rbind (read_varint d j) (λ '(v, j), um_value f d j (KInt (s64 v)) u)
          else if (num =? 6)%Z then
            if negb (wt =? 2)%Z then RErr (EWrongWireType wt)
            else rbind (read_len d j) (λ '(a, b), rbind (slice d a b) (λ s,
                   rbind (um_object f s 0 [] []) (λ x, um_value f d b (KObject (Some x)) u)))
          else if (num =? 7)%Z then
            if negb (wt =? 2)%Z then RErr (EWrongWireType wt)
            else rbind (read_len d j) (λ '(a, b), rbind (slice d a b) (λ s,
                   um_value f d b (KString (Some s)) u))
          else if (num =? 8)%Z then
            if negb (wt =? 0)%Z then RErr (EWrongWireType wt)
            else rbind (read_varint d j) (λ '(v, j), um_value f d j (KTime (s64 v)) u)
          else if (num =? 9)%Z then
            if negb (wt =? 0)%Z then RErr (EWrongWireType wt)
            else rbind (read_varint d j) (λ '(v, j), um_value f d j (KUint v) u)
          else rbind (read_unknown d i (len d)) (λ '(x, j), um_value f d j k (u ++ x)))
      else if (i >? len d)%Z then RErr EUnexpectedEOF
      else ROk (PVal k u)
  end
with um_array (fuel : nat) (d : bytes) (i : Z) (items : list (option pval)) (u : bytes) {struct fuel}
  : res (parr pval) :=
  match fuel with
  | O => RPanic
  | S f =>
      if (i <? len d)%Z then
        rbind (read_head d i) (λ '(num, wt, j),
          if (num =? 1)%Z then
            if negb (wt =? 2)%Z then RErr (EWrongWireType wt)
            else rbind (read_len d j) (λ '(a, b), rbind (slice d a b) (λ s,
                   rbind (um_value f s 0 KNil []) (λ x, um_array f d b (items ++ [Some x]) u)))
          else rbind (read_unknown d i (len d)) (λ '(x, j), um_array f d j items (u ++ x)))
      else if (i >? len d)%Z then RErr EUnexpectedEOF
      else ROk (mkPArr items u)
  end
with um_object (fuel : nat) (d : bytes) (i : Z) (fields : gomap (option pval)) (u : bytes) {struct fuel}
  : res (pobj pval) :=
  match fuel with
  | O => RPanic
  | S f =>
      if (i <? len d)%Z then
        rbind (read_head d i) (λ '(num, wt, j),
          if (num =? 1)%Z then
            if negb (wt =? 2)%Z then RErr (EWrongWireType wt)
            else rbind (read_len d j) (λ '(a, b),
                   rbind (um_entry f d a b "" None) (λ '(key, x),
                     um_object f d b (mset key x fields) u))
          else rbind (read_unknown d i (len d)) (λ '(x, j), um_object f d j fields (u ++ x)))
      else if (i >? len d)%Z then RErr EUnexpectedEOF
      else ROk (mkPObj fields u)
  end
with um_entry (fuel : nat) (d : bytes) (i post : Z) (key : string) (x : option pval) {struct fuel}
  : res (string * option pval) :=
  match fuel with
  | O => RPanic
  | S f =>
      if (i <? post)%Z then
        rbind (read_varint d i) (λ '(wire, j),
          let num := s32 (Z.shiftr wire 3) in
          if (num =? 1)%Z then
            rbind (read_len d j) (λ '(a, b), rbind (slice d a b) (λ s,
              um_entry f d b post (string_of_list_ascii s) x))
          else if (num =? 2)%Z then
            rbind (read_len d j) (λ '(a, b), rbind (slice d a b) (λ s,
              rbind (um_value f s 0 KNil []) (λ v, um_entry f d b post key (Some v))))
          else rbind (read_unknown d i post) (λ '(_, j), um_entry f d j post key x))
      else ROk (key, x)
  end.

(** Log.Unmarshal, 1217-1303: a second object field is merged into the first. *)
Fixpoint um_log (fuel : nat) (d : bytes) (i : Z) (o : option (pobj pval)) (u : bytes) {struct fuel} : res plog :=
  match fuel with
  | O => RPanic
  | S f =>
      if (i <? len d)%Z then
        rbind (read_head d i) (λ '(num, wt, j),
          if (num =? 1)%Z then
            if negb (wt =? 2)%Z then RErr (EWrongWireType wt)
            else rbind (read_len d j) (λ '(a, b), rbind (slice d a b) (λ s,
                   let old := match o with Some x => x | None => mkPObj [] [] end in
                   rbind (um_object (S (length s)) s 0 (po_fields old) (po_unrec old)) (λ x,
                     um_log f d b (Some x) u)))
          else rbind (read_unknown d i (len d)) (λ '(x, j), um_log f d j o (u ++ x)))
      else if (i >? len d)%Z then RErr EUnexpectedEOF
      else ROk (mkPLog o u)
  end.

(** MessageWrapper.Unmarshal, 1130-1215 *)
Fixpoint um_wrapper (fuel : nat) (d : bytes) (i : Z) (m : option (option plog)) (u : bytes) {struct fuel}
  : res pwrapper :=
  match fuel with
  | O => RPanic
  | S f =>
      if (i <? len d)%Z then
        rbind (read_head d i) (λ '(num, wt, j),
          if (num =? 1)%Z then
            if negb (wt =? 2)%Z then RErr (EWrongWireType wt)
            else rbind (read_len d j) (λ '(a, b), rbind (slice d a b) (λ s,
                   rbind (um_log (S (length s)) s 0 None []) (λ x, um_wrapper f d b (Some (Some x)) u)))
          else rbind (read_unknown d i (len d)) (λ '(x, j), um_wrapper f d j m (u ++ x)))
      else if (i >? len d)%Z then RErr EUnexpectedEOF
      else ROk (mkPWrapper m u)
  end.

(** Unmarshal into a new message. *)
Definition Unmarshal (d : bytes) : res pwrapper := um_wrapper (S (length d)) d 0 None [].
Definition UnmarshalLog (d : bytes) : res plog := um_log (S (length d)) d 0 None [].
Definition UnmarshalValue (d : bytes) : res pval := um_value (S (length d)) d 0 KNil [].
