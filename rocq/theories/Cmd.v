(** * cmd/sawmill/sawmill.go:118-156 processInput. *)
From Verif Require Export JsonEvent Isolation.
From Coq Require Import Lia.
Local Open Scope Z_scope.

(** ** bufio.Scanner with ScanLines *)
Definition nl : ascii := zb 10.
Definition cr : ascii := zb 13.
(** bufio/scan.go dropCR *)
Definition dropCR (l : list ascii) : list ascii :=
  match rev l with
  | c :: r => if Ascii.eqb c cr then rev r else l
  | [] => l
  end.
(** bufio.MaxScanTokenSize: a buffer of this size without a line end is ErrTooLong. *)
Definition maxLine : Z := 65536.
(** The lines Scan delivers and whether it stops with ErrTooLong.  [cur] holds the
    bytes of the line read so far, last one first, [n] their number.  Simplification:
    the reader reports end of file by a call of its own, as files and pipes do. *)
Fixpoint scan (l cur : list ascii) (n : Z) : list (list ascii) * bool :=
  match l with
  | [] => if n =? 0 then ([], false) else if maxLine <=? n then ([], true) else ([dropCR (rev cur)], false)
  | c :: l' =>
      if Ascii.eqb c nl then
        if maxLine <=? n then ([], true)
        else let '(ts, long) := scan l' [] 0 in (dropCR (rev cur) :: ts, long)
      else scan l' (c :: cur) (n + 1)
  end.

(** ** strings.TrimSpace *)
(** unicode.IsSpace, in UTF-8. *)
Definition space_runes : list Z :=
  [9; 10; 11; 12; 13; 32; 0x85; 0xA0; 0x1680;
   0x2000; 0x2001; 0x2002; 0x2003; 0x2004; 0x2005; 0x2006; 0x2007; 0x2008; 0x2009; 0x200A;
   0x2028; 0x2029; 0x202F; 0x205F; 0x3000].
Definition spaces : list (list ascii) := map utf8_encode space_runes.
Fixpoint strip1 (p l : list ascii) : option (list ascii) :=
  match p, l with
  | [], _ => Some l
  | c :: p', d :: l' => if Ascii.eqb c d then strip1 p' l' else None
  | _ :: _, [] => None
  end.
Fixpoint strip_any (ps : list (list ascii)) (l : list ascii) : option (list ascii) :=
  match ps with
  | [] => None
  | p :: ps' => match strip1 p l with Some r => Some r | None => strip_any ps' l end
  end.
Fixpoint strip (ps : list (list ascii)) (fuel : nat) (l : list ascii) : list ascii :=
  match fuel with
  | O => l
  | S f => match strip_any ps l with Some r => strip ps f r | None => l end
  end.
Definition trim (l : list ascii) : list ascii :=
  let a := strip spaces (length l) l in
  rev (strip (map (@rev ascii) spaces) (length a) (rev a)).

(** ** The loop *)
Record io : Type := mkIO {
  io_world : world;
  io_out : list ascii;          (* written to out *)
  io_writes : option (nat * nat); (* how many more writes succeed, and how many bytes the
                                     next one writes before it fails; None: all succeed *)
  io_failed : bool;             (* enc.err: json.Encoder stops for good after a write error *)
  io_reported : list Z          (* line numbers in log.Printf messages *)
}.
Definition report (s : io) (w : world) (n : Z) : io :=
  mkIO w (io_out s) (io_writes s) (io_failed s) (io_reported s ++ [n]).
(** One call of out.Write. *)
Definition write (s : io) (w : world) (n : Z) (t : list ascii) : io :=
  match io_writes s with
  | None => mkIO w (io_out s ++ t) None false (io_reported s)
  | Some (S k, b) => mkIO w (io_out s ++ t) (Some (k, b)) false (io_reported s)
  | Some (O, b) => mkIO w (io_out s ++ take b t) (Some (O, b)) true (io_reported s ++ [n])
  end.
Definition line_ops (n : Z) (line : list ascii) : list eop :=
  [OPut "@metadata.line_number" (TUint n); OPut "event.original" (TStr (string_of_list_ascii line))].
(** sawmill.go:134-149: one line that is not blank; json.Encoder.Encode adds a newline
    and writes null for a nil event. *)
Definition process_line (fmt : Z → bool * Z * Z) (fuel : nat) (pl : pipeline) (s : io) (n : Z) (line : list ascii) : Outcome io :=
  let w := io_world s in
  match run (w_heap w) newEvent (line_ops n line) with
  | Panic => Panic
  | Ok (h, e, _) =>
      match Process pl (mkWorld h (w_events w ++ [e]) (w_env w) (w_log w)) (Some (length (w_events w))) with
      | Panic => Panic
      | Ok (w2, r, Some err) => Ok (report s w2 n)
      | Ok (w2, r, None) =>
          if io_failed s then Ok (report s w2 n)
          else
            match r with
            | None => Ok (write s w2 n (list_ascii_of_string "null" ++ [nl]))
            | Some j =>
                match w_events w2 !! j with
                | None => Panic
                | Some e' =>
                    match MarshalText fmt fuel (w_heap w2) e' with
                    | Panic => Panic
                    | Ok None => Ok (report s w2 n)
                    | Ok (Some t) => Ok (write s w2 n (t ++ [nl]))
                    end
                end
            end
      end
  end.
(** sawmill.go:125-150; lineNumber is a uint64. *)
Fixpoint process_lines (fmt : Z → bool * Z * Z) (fuel : nat) (pl : pipeline) (s : io) (n : Z) (ls : list (list ascii)) : Outcome io :=
  match ls with
  | [] => Ok s
  | l :: ls' =>
      let n := (n + 1) mod 2 ^ 64 in
      match trim l with
      | [] => process_lines fmt fuel pl s n ls'
      | line =>
          match process_line fmt fuel pl s n line with
          | Panic => Panic
          | Ok s' => process_lines fmt fuel pl s' n ls'
          end
      end
  end.
(** sawmill.go:118-156; [bytes]: what the reader gives before end of file or, if
    [readerr], before an error.  The flag returned is whether an error is. *)
Definition processInput (fmt : Z → bool * Z * Z) (fuel : nat) (pl : pipeline) (w : world) (writes : option (nat * nat))
    (bytes : list ascii) (readerr : bool) : Outcome (io * bool) :=
  let '(ls, long) := scan bytes [] 0 in
  match process_lines fmt fuel pl (mkIO w [] writes false []) 0 ls with
  | Panic => Panic
  | Ok s => Ok (s, long || readerr)
  end.
