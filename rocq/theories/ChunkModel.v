(** Model of /repo/src/chunk.rs. *)
From Coq Require Import NArith List Bool.
From Verif Require Import Prelude EncodingModel.
Import ListNotations.
Local Open Scope N_scope.

(** src/chunk.rs:3-12 [ChunkType]. *)
Inductive chunk_type := DataSimple | RefSimple | RefLong | DataSegment | PathPush | PathPop | Noop.

Definition chunk_type_eqb (a b : chunk_type) : bool :=
  match a, b with
  | DataSimple, DataSimple | RefSimple, RefSimple | RefLong, RefLong | DataSegment, DataSegment
  | PathPush, PathPush | PathPop, PathPop | Noop, Noop => true
  | _, _ => false
  end.

(** src/chunk.rs:14-44 [Chunk]. Path elements are numbers instead of their decimal strings
    (they are only ever produced by [usize::to_string]). *)
Record chunk := mkChunk {
  ctype : chunk_type;
  ccode : N;
  cdata : option (list N);
  cref_data : option (list N);
  cpath : list N;
  csegment : option N;
  cref : option N;
}.

Definition b2n (b : bool) : N := if b then 1 else 0.

(** What one arm of the match from chunk.rs:64 on leaves behind: chunk kind, payload, reference bytes, segment number, reference number,
    new offset, new path. *)
Definition arm_result : Type :=
  chunk_type * option (list N) * option (list N) * option N * option N * N * list N.

(** src/chunk.rs:64-285, the [match chunk_code]. [None] is the [return Err] arm (281-284) whose message
    computes [4096 / ( *offset - local)]: it panics when [offset <= local].
    [as u16] of values below 65536 is the identity. *)
Definition chunk_arms (code : list N) (c off : N) (path : list N) (local : N) : outcome (option arm_result) :=
  if c =? 0x00 then
    d <- slice code (off + 1) (off + 1) ;;
    _ <- at_ code 1 ;;
    Ok (Some (DataSimple, Some d, None, None, None, off + 2, path))
  else if (0x01 <=? c) && (c <=? 0x05) then
    r <- at_ code (off + 1) ;;
    let len := b2n (c =? 0x01) + 2 * (c - 0x01) in
    d <- slice code (off + 2) (off + 2 + len) ;;
    Ok (Some (RefSimple, Some d, None, None, Some r, off + 2 + len, path))
  else if c =? 0x06 then
    r <- at_ code (off + 1) ;;
    len <- at_ code (off + 2) ;;
    d <- slice code (off + 3) (off + 3 + len) ;;
    Ok (Some (RefSimple, Some d, None, None, Some r, off + 3 + lenN d, path))
  else if c =? 0x07 then
    s <- at_ code (off + 1) ;;
    lb <- slice code (off + 2) (off + 2 + 2) ;;
    let len := get_int lb in
    d <- slice code (off + 4) (off + 4 + len) ;;
    Ok (Some (DataSegment, Some d, None, Some s, None, off + 4 + len, path))
  else if c =? 0x08 then
    d <- slice code (off + 1) (off + 1 + 2) ;;
    Ok (Some (DataSimple, Some d, None, None, None, off + 1 + 2, path))
  else if (0x09 <=? c) && (c <=? 0x0D) then
    rb <- slice code (off + 1) (off + 1 + 2) ;;
    let len := b2n (c =? 0x09) + 2 * (c - 0x09) in
    d <- slice code (off + 3) (off + 3 + len) ;;
    Ok (Some (RefSimple, Some d, None, None, Some (get_path_int rb), off + 3 + len, path))
  else if c =? 0x0E then
    x <- at_ code (off + 1) ;;
    if negb (x =? 0xFF) then
      rb <- slice code (off + 1) (off + 1 + 2) ;;
      len <- at_ code (off + 3) ;;
      d <- slice code (off + 4) (off + 4 + len) ;;
      Ok (Some (RefSimple, Some d, None, None, Some (get_path_int rb), off + 4 + len, path))
    else
      d <- slice code (off + 1) (off + 1 + 6) ;;
      Ok (Some (DataSimple, Some d, None, None, None, off + 1 + 6, path))
  else if c =? 0x0F then
    x <- at_ code (off + 1) ;;
    if x =? 0x80 then
      s <- at_ code (off + 2) ;;
      lb <- slice code (off + 3) (off + 3 + 2) ;;
      let len := get_int lb in
      d <- slice code (off + 5) (off + 5 + len) ;;
      Ok (Some (DataSegment, Some d, None, Some s, None, off + 5 + len, path))
    else Ok (Some (Noop, None, None, None, None, off, path))
  else if c =? 0x10 then
    d <- slice code (off + 1) (off + 1 + 3) ;;
    Ok (Some (DataSimple, Some d, None, None, None, off + 1 + 3, path))
  else if (0x11 <=? c) && (c <=? 0x15) then
    let len := 3 + b2n (c =? 0x11) + 2 * (c - 0x11) in
    d <- slice code (off + 1) (off + 1 + len) ;;
    Ok (Some (DataSimple, Some d, None, None, None, off + 1 + len, path))
  else if c =? 0x16 then
    rb <- slice code (off + 1) (off + 1 + 3) ;;
    len <- at_ code (off + 4) ;;
    d <- slice code (off + 5) (off + 5 + len) ;;
    Ok (Some (RefLong, Some d, Some rb, None, None, off + 5 + len, path))
  else if c =? 0x17 then
    rb <- slice code (off + 1) (off + 1 + 3) ;;
    lb <- slice code (off + 4) (off + 4 + 2) ;;
    let len := get_path_int lb in
    d <- slice code (off + 6) (off + 6 + len) ;;
    Ok (Some (RefLong, Some d, Some rb, None, None, off + 6 + len, path))
  else if c =? 0x1B then
    x <- at_ code (off + 1) ;;
    if x =? 0x00 then
      r <- at_ code (off + 2) ;;
      d <- slice code (off + 3) (off + 3 + 4) ;;
      Ok (Some (RefSimple, Some d, None, None, Some r, off + 3 + 4, path))
    else
      len <- at_ code (off + 1) ;;
      d <- slice code (off + 2) (off + 2 + len) ;;
      Ok (Some (DataSimple, Some d, None, None, None,
                off + 2 + (len + b2n (c =? 0x19) + 2 * (c - 0x19)), path))
  else if (c =? 0x19) || (c =? 0x1A) || (c =? 0x1C) || (c =? 0x1D) then
    len <- at_ code (off + 1) ;;
    d <- slice code (off + 2) (off + 2 + len) ;;
    Ok (Some (DataSimple, Some d, None, None, None,
              off + 2 + (len + b2n (c =? 0x19) + 2 * (c - 0x19)), path))
  else if c =? 0x1E then
    rlen <- at_ code (off + 1) ;;
    rb <- slice code (off + 2) (off + 2 + rlen) ;;
    len <- at_ code (off + 2 + rlen) ;;
    d <- slice code (off + 2 + rlen + 1) (off + 2 + rlen + 1 + len) ;;
    Ok (Some (RefLong, Some d, Some rb, None, None, off + 2 + rlen + 1 + len, path))
  else if c =? 0x1F then
    rlen <- at_ code (off + 1) ;;
    rb <- slice code (off + 2) (off + 2 + rlen) ;;
    lb <- slice code (off + 2) (off + 2 + 2) ;;
    let len := get_int lb in
    d <- slice code (off + 4) (off + 4 + len) ;;
    Ok (Some (RefLong, Some d, Some rb, None, None, off + 4 + len, path))
  else if c =? 0x20 then
    x <- at_ code (off + 1) ;;
    let o := if x =? 0xFE then off + 2 else off + 1 in
    d <- (if x =? 0xFE then slice code o (o + 8) else slice code o (o + 1)) ;;
    ib <- slice code o (o + 1) ;;
    Ok (Some (PathPush, Some d, None, None, None, o + lenN d, path ++ [get_path_int ib]))
  else if c =? 0x23 then
    len <- at_ code (off + 1) ;;
    d <- slice code (off + 2) (off + 2 + len) ;;
    Ok (Some (DataSimple, Some d, None, None, None, off + 2 + len, path))
  else if c =? 0x28 then
    d <- slice code (off + 1) (off + 1 + 2) ;;
    Ok (Some (PathPush, Some d, None, None, None, off + 1 + 2, path ++ [get_path_int d]))
  else if c =? 0x30 then
    d <- slice code (off + 1) (off + 1 + 3) ;;
    Ok (Some (PathPush, Some d, None, None, None, off + 1 + 3, path ++ [get_path_int d]))
  else if c =? 0x38 then
    len <- at_ code (off + 1) ;;
    d <- slice code (off + 2) (off + 2 + 2) ;;
    Ok (Some (PathPush, Some d, None, None, None, off + 2 + len, path ++ [get_path_int d]))
  else if (c =? 0x3D) || (c =? 0x40) then
    Ok (Some (PathPop, None, None, None, None, off + 1, removelast path))
  else if c =? 0x80 then
    Ok (Some (Noop, None, None, None, None, off + 1, path))
  else
    dist <- subU off local ;;
    if dist =? 0 then Panic else Ok None.

(** src/chunk.rs:46-297 [get_chunk_from_code]. [offset] and [path] are [&mut]: their new values are returned.
    The error text "Invalid Opcode for Chunk." is dropped. [removelast] is [Vec::pop] (no effect on an empty path). *)
Definition get_chunk (code : list N) (off : N) (path : list N) (local : N)
  : outcome (result (chunk * N * list N) unit) :=
  c0 <- at_ code off ;;
  let delayed := N.land c0 0xC0 =? 0xC0 in
  let c := if delayed then N.land c0 0x3F else c0 in
  a <- chunk_arms code c off path local ;;
  match a with
  | None => Ok (RErr tt)
  | Some (ty, d, rd, seg, r, off', path') =>
    let path'' := if delayed then removelast path' else path' in
    Ok (ROk (mkChunk ty c d rd path'' seg r, off', path''))
  end.
