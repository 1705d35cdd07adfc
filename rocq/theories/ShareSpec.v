(** * Specification: what a pipeline of built-in processors does, copies included.

    set with copy_from stores the very array or object it finds, not a copy: from then
    on two fields hold the same one, and what is done to it through one field shows
    through the other.  So arrays and objects are numbered here; a field holds a plain
    value or the number of an array or object.  Still no heap and no pointers: plain
    values are values, objects map names to what they hold. *)
From Verif Require Export PipeSpec.

(** What a field or an array element holds.  [IPlain t]: a value that is neither an array
    nor an object with fields ([TNil]: nil; [TNilObj]: an object without a map). *)
Inductive item : Type := IPlain (t : tree) | IArr (n : nat) | IObj (n : nat).
(** The arrays ([None]: the nil slice) and objects. *)
Inductive box : Type := BxArr (l : option (list item)) | BxObj (m : gomap item).
(** All of them, by number; and the one that holds the fields of the event, none if it
    was never given a field. *)
Record graph : Type := mkGraph { g_boxes : list box; g_root : option nat }.

Definition entries (bs : list box) (n : nat) : gomap item :=
  match bs !! n with Some (BxObj m) => m | _ => [] end.
Definition elems (bs : list box) (n : nat) : list item :=
  match bs !! n with Some (BxArr (Some l)) => l | _ => [] end.

(** The value at a path below object [n].  Passing through nil panics. *)
Fixpoint follow (path : list string) (n : nat) (bs : list box) : Outcome (option item) :=
  match path with
  | [] => Ok (Some (IObj n))
  | k :: rest =>
      match mget k (entries bs n) with
      | None => Ok None
      | Some x =>
          match rest, x with
          | [], IPlain TNil => Ok None
          | [], _ => Ok (Some x)
          | _, IPlain TNil => Panic
          | _, IObj n' => follow rest n' bs
          | _, _ => Ok None
          end
      end
  end.
(** Storing [x] at a path below object [n], creating objects.  [Ok None]: there is
    something on the way that is no object. *)
Definition set_key (n : nat) (k : string) (x : item) (bs : list box) : list box :=
  <[n := BxObj (mset k x (entries bs n))]> bs.
Fixpoint place (path : list string) (n : nat) (x : item) (bs : list box) : Outcome (option (list box)) :=
  match path with
  | [] => Ok None
  | [k] => Ok (Some (set_key n k x bs))
  | k :: rest =>
      match mget k (entries bs n) with
      | None => let new := length bs in place rest new x (set_key n k (IObj new) bs ++ [BxObj []])
      | Some (IObj n') => place rest n' x bs
      | Some (IPlain TNil) | Some (IPlain TNilObj) => Panic
      | Some _ => Ok None
      end
  end.

(** Reading and storing a field of the event. *)
Definition gread (key : string) (G : graph) : verdict (option item) :=
  match g_root G with
  | None => Gives None
  | Some n =>
      if decide (entries (g_boxes G) n = []) then Gives None
      else match follow (spec_path key) n (g_boxes G) with Panic => Crashes | Ok o => Gives o end
  end.
Definition rooted (G : graph) : graph * nat :=
  match g_root G with
  | Some n => (G, n)
  | None => let n := length (g_boxes G) in (mkGraph (g_boxes G ++ [BxObj []]) (Some n), n)
  end.
Definition gstore (key : string) (x : item) (G : graph) : verdict (graph * option goerr) :=
  if decide (spec_path key = []) then Gives (G, Some err_empty)
  else
    let '(G, n) := rooted G in
    match place (spec_path key) n x (g_boxes G) with
    | Panic => Crashes
    | Ok None => Gives (G, Some (errNotObject (spec_path key)))
    | Ok (Some bs) => Gives (mkGraph bs (g_root G), None)
    end.
(** Array [n] extended by a string. *)
Definition append_to (n : nat) (value : string) (G : graph) : graph :=
  mkGraph (<[n := BxArr (Some (elems (g_boxes G) n ++ [IPlain (TStr value)]))]> (g_boxes G)) (g_root G).
(** A new array or object. *)
Definition grow (b : box) (G : graph) : graph * nat := (mkGraph (g_boxes G ++ [b]) (g_root G), length (g_boxes G)).

Definition gchange_case (msg : string) (f : string → string) (field target : string) (G : graph) : verdict (graph * option goerr) :=
  vbind (gread field G) (λ o,
    match o with
    | None => Gives (G, Some (EKeyMissing field))
    | Some (IPlain (TStr s)) => gstore (if decide (target = "") then field else target) (IPlain (TStr (f s))) G
    | Some _ => Gives (G, Some (EMsg msg))
    end).
Definition gsem (b : bconf) (G : graph) : verdict (graph * option goerr) :=
  match b with
  | BLowercase f field target => gchange_case "value to lowercase is not a string" f field target G
  | BUppercase f field target => gchange_case "value to uppercase is not a string" f field target G
  | BAppend field value =>
      vbind (gread field G) (λ o,
        match o with
        | None =>
            (* an empty array is stored first; if that fails, the error is lost *)
            let '(G, n) := grow (BxArr None) G in
            vbind (gstore field (IArr n) G) (λ '(G', _), Gives (append_to n value G', None))
        | Some (IArr n) => Gives (append_to n value G, None)
        | Some (IPlain (TStr _)) => Gives (G, None) (* lost *)
        | Some _ => Gives (G, Some (EMsg "value to append to is not array"))
        end)
  | BSet target t => gstore target (IPlain t) G
  | BCopy from target =>
      vbind (gread from G) (λ o,
        match o with
        | None => Gives (G, Some (EKeyMissing from))
        | Some x => gstore target x G
        end)
  | BSetNothing target => Gives (G, if decide (spec_path target = []) then Some err_empty else None)
  | BRemove _ | BCommunityID => Gives (G, None)
  end.
Notation gsem_pipe := (run_pipe gsem).

(** ** Between graphs and nested maps *)
(** What an item shows: following the numbers.  Nothing at all if that never ends. *)
Inductive unfolds (bs : list box) : item → tree → Prop :=
| un_plain t : match t with TNilArr | TArr _ | TObj _ => False | _ => True end → unfolds bs (IPlain t) t
| un_nilarr n : bs !! n = Some (BxArr None) → unfolds bs (IArr n) TNilArr
| un_arr n l ts : bs !! n = Some (BxArr (Some l)) → Forall2 (unfolds bs) l ts → unfolds bs (IArr n) (TArr ts)
| un_obj n m m' : bs !! n = Some (BxObj m) →
    Forall2 (λ a b, a.1 = b.1 ∧ unfolds bs a.2 b.2) m m' → unfolds bs (IObj n) (TObj m').
(** What the event shows. *)
Definition shows (G : graph) (m : gomap tree) : Prop :=
  match g_root G with None => m = [] | Some n => unfolds (g_boxes G) (IObj n) (TObj m) end.
(** The fields [m], nothing shared: every array and object numbered, from [n] on, in the
    order of a walk; no root if there are no fields. *)
Fixpoint plant_item (t : tree) (n : nat) : item * list box :=
  match t with
  | TNilArr => (IArr n, [BxArr None])
  | TArr l =>
      let '(xs, bs) := (fix go (l : list tree) (n : nat) : list item * list box :=
        match l with
        | [] => ([], [])
        | t :: l' => let '(x, b1) := plant_item t n in let '(xs, b2) := go l' (n + length b1) in (x :: xs, b1 ++ b2)
        end) l (S n) in
      (IArr n, BxArr (Some xs) :: bs)
  | TObj m =>
      let '(xs, bs) := (fix go (m : list (string * tree)) (n : nat) : list (string * item) * list box :=
        match m with
        | [] => ([], [])
        | (k, t) :: m' => let '(x, b1) := plant_item t n in let '(xs, b2) := go m' (n + length b1) in ((k, x) :: xs, b1 ++ b2)
        end) m (S n) in
      (IObj n, BxObj xs :: bs)
  | _ => (IPlain t, [])
  end.
Definition planted (m : gomap tree) : graph :=
  match m with [] => mkGraph [] None | _ => mkGraph (plant_item (TObj m) 0).2 (Some 0) end.
