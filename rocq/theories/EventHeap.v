(** * The event heap: pkg/event/value.go and pkg/event/event.go.

    The Go code passes [*Value] pointers and maps around and mutates maps in
    place, so the model is a heap of value cells and map cells.  A Go [*Value]
    is [option ptr] ([None] is nil), a Go [map[string]*Value] is [option mref]
    ([None] is the nil map).

    Simplifications: slices are values (list of pointers): two slices sharing a
    backing array with spare capacity are not modelled here (Slices.v models them and
    shows when that makes no difference).  The [*Event] receiver is non-nil. *)
From Verif Require Export GoMap KeyPath.

Notation ptr := nat (only parsing).
Notation mref := nat (only parsing).

(** ** value.go:28-41 ValueType *)
Definition NullType : N := 0.
Definition ArrayType : N := 1.
Definition BoolType : N := 2.
Definition FloatType : N := 3.
Definition IntegerType : N := 4.
Definition ObjectType : N := 5.
Definition StringType : N := 6.
Definition TimestampType : N := 7.
Definition UnsignedIntegerType : N := 8.

(** value.go:43-60 valueTypeNames and ValueType.String. *)
Definition valueTypeNames : list (N * string) :=
  [ (NullType, "null_type"); (ArrayType, "array_type"); (BoolType, "bool_type");
    (FloatType, "float_type"); (IntegerType, "integer_type");
    (ObjectType, "object_type"); (StringType, "string_type");
    (TimestampType, "timestamp_type");
    (UnsignedIntegerType, "unsigned_integer_type") ].

Fixpoint assocN {A} (k : N) (l : list (N * A)) : option A :=
  match l with
  | [] => None
  | (k', v) :: l' => if N.eqb k k' then Some v else assocN k l'
  end.

Definition ValueType_String (vt : N) : string :=
  match assocN vt valueTypeNames with
  | Some name => name
  | None => "unknown_type"
  end.

(** value.go:62-72 Value.  [v_float] holds the IEEE-754 bits; [v_ts] is
    Timestamp.UnixNanos (time.go:25-27).  [v_arr = None] is the nil slice. *)
Record Value : Type := mkValue {
  v_int : Z;
  v_uint : Z;
  v_float : Z;
  v_ts : Z;
  v_str : string;
  v_arr : option (list (option ptr));
  v_obj : option mref;
  v_bool : bool;
  v_type : N
}.

(** The zero Value. *)
Definition zeroValue : Value := mkValue 0 0 0 0 "" None None false NullType.

(** value.go:26 NullValue and value.go:159-189, the constructors. *)
Definition mkNull : Value := zeroValue.
Definition mkBool (b : bool) : Value := mkValue 0 0 0 0 "" None None b BoolType.
Definition mkInteger (z : Z) : Value := mkValue z 0 0 0 "" None None false IntegerType.
Definition mkUnsignedInteger (z : Z) : Value :=
  mkValue 0 z 0 0 "" None None false UnsignedIntegerType.
Definition mkFloat (bits : Z) : Value := mkValue 0 0 bits 0 "" None None false FloatType.
Definition mkString (s : string) : Value := mkValue 0 0 0 0 s None None false StringType.
Definition mkTimestamp (ns : Z) : Value := mkValue 0 0 0 ns "" None None false TimestampType.
(** [Array(v ...*Value)]: without arguments the slice is nil. *)
Definition mkArray (l : list (option ptr)) : Value :=
  mkValue 0 0 0 0 "" (match l with [] => None | _ => Some l end) None false ArrayType.
Definition mkObject (r : option mref) : Value :=
  mkValue 0 0 0 0 "" None r false ObjectType.

(** ** Heaps *)
Record heap : Type := mkHeap {
  hvals : list Value;
  hmaps : list (gomap (option ptr))
}.

Definition emptyHeap : heap := mkHeap [] [].

Definition alloc_val (h : heap) (v : Value) : heap * ptr :=
  (mkHeap (hvals h ++ [v]) (hmaps h), length (hvals h)).

Definition alloc_map (h : heap) : heap * mref :=
  (mkHeap (hvals h) (hmaps h ++ [ [] ]), length (hmaps h)).

(** Dereferencing a [*Value]: nil panics.  (A dangling pointer cannot occur in
    Go; in the model it panics too and is excluded by the invariants.) *)
Definition deref (h : heap) (op : option ptr) : Outcome Value :=
  match op with
  | None => Panic
  | Some p => match hvals h !! p with Some v => Ok v | None => Panic end
  end.

Definition set_val (h : heap) (p : ptr) (v : Value) : heap :=
  mkHeap (<[p := v]> (hvals h)) (hmaps h).

(** Reading a map, nil map reads as empty. *)
Definition map_of (h : heap) (r : option mref) : gomap (option ptr) :=
  match r with
  | None => []
  | Some r => match hmaps h !! r with Some gm => gm | None => [] end
  end.

(** [m[k] = v]: assignment to an entry of the nil map panics. *)
Definition map_write (h : heap) (r : option mref) (k : string) (op : option ptr)
  : Outcome heap :=
  match r with
  | None => Panic
  | Some r =>
      match hmaps h !! r with
      | Some gm => Ok (mkHeap (hvals h) (<[r := mset k op gm]> (hmaps h)))
      | None => Panic
      end
  end.

(** [delete(m, k)]: a no-op on the nil map. *)
Definition map_delete (h : heap) (r : option mref) (k : string) : heap :=
  match r with
  | None => h
  | Some r =>
      match hmaps h !! r with
      | Some gm => mkHeap (hvals h) (<[r := mdel k gm]> (hmaps h))
      | None => h
      end
  end.

(** ** Events: event.go:33-40 *)
Record event : Type := mkEvent { fields : option mref }.
Definition newEvent : event := mkEvent None.

(** event.go:101-120 get, the part after the two early returns: the loop over
    [path[:len(path)-1]] and the final lookup.  The loop follows [inner.Object]
    whatever [inner.Type] is. *)
Fixpoint get_loop (h : heap) (m : option mref) (path : list string)
  : Outcome (option ptr) :=
  match path with
  | [] => Ok None (* not reached: path is non-empty *)
  | [k] => Ok (match mget k (map_of h m) with Some op => op | None => None end)
  | k :: rest =>
      match mget k (map_of h m) with
      | None => Ok None
      | Some op =>
          match deref h op with
          | Panic => Panic
          | Ok inner =>
              match map_of h (v_obj inner) with
              | [] => Ok None
              | _ => get_loop h (v_obj inner) rest
              end
          end
      end
  end.

(** event.go:101-120 get.  For the empty path it allocates a new Value wrapping
    the event's own map. *)
Definition get_path (h : heap) (e : event) (path : list string)
  : Outcome (heap * option ptr) :=
  match map_of h (fields e) with
  | [] => Ok (h, None)
  | _ =>
      match path with
      | [] => let '(h', p) := alloc_val h (mkObject (fields e)) in Ok (h', Some p)
      | _ =>
          match get_loop h (fields e) path with
          | Ok op => Ok (h, op)
          | Panic => Panic
          end
      end
  end.

(** event.go:97-99 Get. *)
Definition Get (h : heap) (e : event) (key : string) : Outcome (heap * option ptr) :=
  get_path h e (keyToPath key).

Definition errPathPrefix (path : list string) : string :=
  "event put failed for path <" +:+ pathString path +:+ ">: ".

(** event.go:77-92, the loop of put and the final assignment.  [full] is the
    whole path, used in the error text only. *)
Fixpoint put_loop (full : list string) (h : heap) (m : option mref) (path : list string)
    (val : option ptr) : Outcome (heap * option goerr) :=
  match path with
  | [] => Ok (h, None) (* not reached *)
  | [k] =>
      match map_write h m k val with
      | Ok h' => Ok (h', None)
      | Panic => Panic
      end
  | k :: rest =>
      match mget k (map_of h m) with
      | Some op =>
          match deref h op with
          | Panic => Panic
          | Ok inner =>
              if N.eqb (v_type inner) ObjectType
              then put_loop full h (v_obj inner) rest val
              else Ok (h, Some (EWrap (errPathPrefix full) (ESent STargetKeyNotObject)))
          end
      | None =>
          let '(h1, r) := alloc_map h in
          let '(h2, p) := alloc_val h1 (mkObject (Some r)) in
          match map_write h2 m k (Some p) with
          | Panic => Panic
          | Ok h3 => put_loop full h3 (Some r) rest val
          end
      end
  end.

Record put_result : Type := mkPut {
  put_heap : heap;
  put_event : event;
  put_old : option ptr;
  put_err : option goerr
}.

(** event.go:60-93 put. *)
Definition put (h : heap) (e : event) (path : list string) (val : option ptr)
    (overwrite : bool) : Outcome put_result :=
  match path with
  | [] => Ok (mkPut h e None (Some (EWrap "event put failed: " (ESent SEmptyKey))))
  | _ =>
      match val with
      | None => Ok (mkPut h e None None)
      | Some _ =>
          let '(h1, e1) :=
            match fields e with
            | None => let '(h1, r) := alloc_map h in (h1, mkEvent (Some r))
            | Some _ => (h, e)
            end in
          match get_path h1 e1 path with
          | Panic => Panic
          | Ok (h2, old) =>
              if (match old with Some _ => true | None => false end) && negb overwrite
              then Ok (mkPut h2 e1 old
                         (Some (EWrap (errPathPrefix path) (ESent SKeyExists))))
              else
                match put_loop path h2 (fields e1) path val with
                | Panic => Panic
                | Ok (h3, Some err) => Ok (mkPut h3 e1 None (Some err))
                | Ok (h3, None) => Ok (mkPut h3 e1 old None)
                end
          end
      end
  end.

(** event.go:49-51 Put and event.go:56-58 TryPut. *)
Definition Put (h : heap) (e : event) (key : string) (val : option ptr) : Outcome put_result :=
  put h e (keyToPath key) val true.
Definition TryPut (h : heap) (e : event) (key : string) (val : option ptr) : Outcome put_result :=
  put h e (keyToPath key) val false.

(** event.go:127-138 delete: note that it removes [path[0]]. *)
Definition delete_path (h : heap) (e : event) (path : list string)
  : Outcome (heap * option ptr) :=
  match path with
  | [] => Ok (h, None)
  | k :: _ =>
      match map_of h (fields e) with
      | [] => Ok (h, None)
      | _ =>
          match get_path h e path with
          | Panic => Panic
          | Ok (h1, v) =>
              match v with
              | Some _ => Ok (map_delete h1 (fields e) k, v)
              | None => Ok (h1, v)
              end
          end
      end
  end.

(** event.go:123-125 Delete (named [EvDelete]: std++ has a [Delete]). *)
Definition EvDelete (h : heap) (e : event) (key : string) : Outcome (heap * option ptr) :=
  delete_path h e (keyToPath key).
