(** Independent description of the chunk format: a table of opcodes and a reader over the remaining input.

    The reader never sees absolute positions; it consumes a list of bytes. *)
From Coq Require Import NArith List Bool.
From Verif Require Import Prelude.
Import ListNotations.
Local Open Scope N_scope.

(** What a chunk is. *)
Inductive kind := KData | KKey | KLongKey | KSegment | KPush | KPop | KNothing.

(** How the length of a field is found in the input. *)
Inductive width :=
| Exactly (n : N)       (* known from the opcode *)
| Len8                  (* one length byte *)
| Len16                 (* two length bytes, big endian *)
| LenPath.              (* two bytes, 128 plus the second *)

(** Layout of the bytes after the opcode. *)
Inductive layout :=
| LKey8 (w : width)                    (* one key byte, payload *)
| LKeyPath (w : width)                 (* two byte key worth 128 plus its second byte, payload *)
| LData (w : width) (slack : N)        (* payload, then [slack] bytes that are skipped unseen *)
| LSegment (pad : N) (w : width)       (* [pad] ignored bytes, one segment byte, payload *)
| LLong (wr wd : width)                (* reference bytes, payload *)
| LLongOverlap                         (* reference is counted by one byte but not consumed *)
| LPush8                               (* one directory byte *)
| LPushBig                             (* marker byte, eight bytes, the first is the directory *)
| LPush16                              (* two directory bytes worth 128 plus the second *)
| LPush24                              (* three directory bytes, always directory 0 *)
| LPushCounted                         (* count byte, two directory bytes, [count] bytes in all *)
| LPop
| LNop
| LZero                                (* opcode 0: empty payload, one byte skipped unseen *)
| LStuck.                              (* nothing is consumed, not even the opcode *)

(** The opcode table. Some opcodes look at the byte after the opcode. *)
Definition layout_of (c : N) (next : N) : option layout :=
  match c with
  | 0x00 => Some LZero
  | 0x01 => Some (LKey8 (Exactly 1))
  | 0x02 => Some (LKey8 (Exactly 2))
  | 0x03 => Some (LKey8 (Exactly 4))
  | 0x04 => Some (LKey8 (Exactly 6))
  | 0x05 => Some (LKey8 (Exactly 8))
  | 0x06 => Some (LKey8 Len8)
  | 0x07 => Some (LSegment 0 Len16)
  | 0x08 => Some (LData (Exactly 2) 0)
  | 0x09 => Some (LKeyPath (Exactly 1))
  | 0x0A => Some (LKeyPath (Exactly 2))
  | 0x0B => Some (LKeyPath (Exactly 4))
  | 0x0C => Some (LKeyPath (Exactly 6))
  | 0x0D => Some (LKeyPath (Exactly 8))
  | 0x0E => Some (if next =? 0xFF then LData (Exactly 6) 0 else LKeyPath Len8)
  | 0x0F => Some (if next =? 0x80 then LSegment 1 Len16 else LStuck)
  | 0x10 => Some (LData (Exactly 3) 0)
  | 0x11 => Some (LData (Exactly 4) 0)
  | 0x12 => Some (LData (Exactly 5) 0)
  | 0x13 => Some (LData (Exactly 7) 0)
  | 0x14 => Some (LData (Exactly 9) 0)
  | 0x15 => Some (LData (Exactly 11) 0)
  | 0x16 => Some (LLong (Exactly 3) Len8)
  | 0x17 => Some (LLong (Exactly 3) LenPath)
  | 0x19 => Some (LData Len8 1)
  | 0x1A => Some (LData Len8 2)
  | 0x1B => Some (if next =? 0 then LKey8 (Exactly 4) else LData Len8 4)
  | 0x1C => Some (LData Len8 6)
  | 0x1D => Some (LData Len8 8)
  | 0x1E => Some (LLong Len8 Len8)
  | 0x1F => Some LLongOverlap
  | 0x20 => Some (if next =? 0xFE then LPushBig else LPush8)
  | 0x23 => Some (LData Len8 0)
  | 0x28 => Some LPush16
  | 0x30 => Some LPush24
  | 0x38 => Some LPushCounted
  | 0x3D => Some LPop
  | 0x40 => Some LPop
  | 0x80 => Some LNop
  | _ => None
  end.

(** Opcodes that carry an extra byte between opcode and layout: only 0x1B followed by 0. *)
Definition lead_of (c next : N) : N := if (c =? 0x1B) && (next =? 0) then 1 else 0.

(** Opcodes that look at the byte after them, which therefore has to exist. *)
Definition peeks (c : N) : bool :=
  (c =? 0x0E) || (c =? 0x0F) || (c =? 0x1B) || (c =? 0x20).

(** Effect on the directory path, applied before a possible delayed pop. *)
Inductive dir := Stay | Enter (n : N) | Leave.

Record reading := mkReading {
  rkind : kind;
  rkey : option N;
  rref : option (list N);
  rdata : option (list N);
  rseg : option N;
  rdir : dir;
  rused : N;         (* how far the position moves, opcode included *)
}.

(** Reading from a list. *)
Definition take (n : N) (l : list N) : option (list N * list N) :=
  if n <=? lenN l then Some (firstn (N.to_nat n) l, skipn (N.to_nat n) l) else None.

(** A counted field: its bytes, the bytes used for count and field, and the remaining input. *)
Definition field (w : width) (l : list N) : option (list N * N * list N) :=
  match w with
  | Exactly n => match take n l with Some (d, r) => Some (d, n, r) | None => None end
  | Len8 => match l with
            | n :: l' => match take n l' with Some (d, r) => Some (d, 1 + n, r) | None => None end
            | _ => None
            end
  | Len16 => match l with
             | a :: b :: l' =>
               match take (256 * a + b) l' with Some (d, r) => Some (d, 2 + (256 * a + b), r) | None => None end
             | _ => None
             end
  | LenPath => match l with
               | _ :: b :: l' =>
                 match take (128 + b) l' with Some (d, r) => Some (d, 2 + (128 + b), r) | None => None end
               | _ => None
               end
  end.

(** Bytes after the opcode (and lead byte) to a reading; [used0] counts opcode and lead. *)
Definition read_layout (y : layout) (used0 : N) (l : list N) : option reading :=
  match y with
  | LKey8 w =>
    match l with
    | k :: l1 =>
      match field w l1 with
      | Some (d, n, _) => Some (mkReading KKey (Some k) None (Some d) None Stay (used0 + 1 + n))
      | None => None
      end
    | [] => None
    end
  | LKeyPath w =>
    match l with
    | _ :: b :: l1 =>
      match field w l1 with
      | Some (d, n, _) => Some (mkReading KKey (Some (128 + b)) None (Some d) None Stay (used0 + 2 + n))
      | None => None
      end
    | _ => None
    end
  | LData w slack =>
    match field w l with
    | Some (d, n, _) => Some (mkReading KData None None (Some d) None Stay (used0 + n + slack))
    | None => None
    end
  | LSegment pad w =>
    match take pad l with
    | Some (_, s :: l1) =>
      match field w l1 with
      | Some (d, n, _) => Some (mkReading KSegment None None (Some d) (Some s) Stay (used0 + pad + 1 + n))
      | None => None
      end
    | _ => None
    end
  | LLong wr wd =>
    match field wr l with
    | Some (rf, n, l1) =>
      match field wd l1 with
      | Some (d, m, _) => Some (mkReading KLongKey None (Some rf) (Some d) None Stay (used0 + n + m))
      | None => None
      end
    | None => None
    end
  | LLongOverlap =>
    match l with
    | n :: l1 =>
      match take n l1, field Len16 l1 with
      | Some (rf, _), Some (d, m, _) =>
        Some (mkReading KLongKey None (Some rf) (Some d) None Stay (used0 + 1 + m))
      | _, _ => None
      end
    | [] => None
    end
  | LPush8 =>
    match l with
    | n :: _ => Some (mkReading KPush None None (Some [n]) None (Enter n) (used0 + 1))
    | [] => None
    end
  | LPushBig =>
    match take 8 (tl l) with
    | Some (d, _) => Some (mkReading KPush None None (Some d) None (Enter (hd 0 d)) (used0 + 1 + 8))
    | None => None
    end
  | LPush16 =>
    match l with
    | a :: b :: _ => Some (mkReading KPush None None (Some [a; b]) None (Enter (128 + b)) (used0 + 2))
    | _ => None
    end
  | LPush24 =>
    match take 3 l with
    | Some (d, _) => Some (mkReading KPush None None (Some d) None (Enter 0) (used0 + 3))
    | None => None
    end
  | LPushCounted =>
    match l with
    | n :: a :: b :: _ => Some (mkReading KPush None None (Some [a; b]) None (Enter (128 + b)) (used0 + 1 + n))
    | _ => None
    end
  | LPop => Some (mkReading KPop None None None None Leave used0)
  | LNop => Some (mkReading KNothing None None None None Stay used0)
  | LZero => Some (mkReading KData None None (Some []) None Stay (used0 + 1))
  | LStuck => Some (mkReading KNothing None None None None Stay 0)
  end.

(** Opcode byte to opcode and delayed-pop flag. *)
Definition split_opcode (b : N) : N * bool := if 0xC0 <=? b then (b - 0xC0, true) else (b, false).

Inductive body_result :=
| BRead (r : reading)
| BBadOpcode
| BTruncated.

(** Read the rest of a chunk with opcode [c] from the input after the opcode byte. *)
Definition read_body (c : N) (l : list N) : body_result :=
  match l with
  | [] =>
    if peeks c then BTruncated
    else match layout_of c 0 with
         | None => BBadOpcode
         | Some y => match read_layout y 1 [] with Some r => BRead r | None => BTruncated end
         end
  | next :: _ =>
    match layout_of c next with
    | None => BBadOpcode
    | Some y =>
      let lead := lead_of c next in
      match read_layout y (1 + lead) (skipn (N.to_nat lead) l) with
      | Some r => BRead r
      | None => BTruncated
      end
    end
  end.

Inductive spec_result :=
| SRead (c : N) (r : reading) (late_pop : bool)
| SBadOpcode
| STruncated.

(** Read one chunk from the remaining input. *)
Definition spec_read (l : list N) : spec_result :=
  match l with
  | [] => STruncated
  | b :: l1 =>
    let (c, late) := split_opcode b in
    match read_body c l1 with
    | BRead r => SRead c r late
    | BBadOpcode => SBadOpcode
    | BTruncated => STruncated
    end
  end.

(** The path after a chunk. *)
Definition apply_dir (d : dir) (late : bool) (path : list N) : list N :=
  let p := match d with Stay => path | Enter n => path ++ [n] | Leave => removelast path end in
  if late then removelast p else p.
