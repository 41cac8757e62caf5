(** Model of /repo/src/decompile/sector.rs and /repo/src/decompile/decompiler.rs. *)
From Coq Require Import Ascii String NArith List Bool.
From Verif Require Import Prelude Utf8 EncodingModel CharConvModel ChunkModel InstrModel ComponentModel.
Import ListNotations.
Local Open Scope N_scope.

(** src/decompile/sector.rs:4-12 [Sector]; [chunks] is always empty and left out. *)
Record sector_rec := mkSector {
  s_deleted : bool;
  s_level : N;
  s_previous : N;
  s_next : N;
  s_payload : list N;
}.

(** src/decompile/sector.rs:33-42 [get_sector]. [as u32] of a value below 2^32 is the identity. *)
Definition get_sector (sector : list N) : outcome sector_rec :=
  b0 <- at_ sector 0 ;;
  b1 <- at_ sector 1 ;;
  prev <- slice sector 4 8 ;;
  next <- slice sector 8 12 ;;
  payload <- slice sector 20 (lenN sector) ;;
  Ok (mkSector (negb (b0 =? 0)) (N.land b1 0xFFFFFF) (get_int prev) (get_int next) payload).

(** Decimal digits of a byte, [u8::to_string], as in decompiler.rs:68. *)
Definition dec3 (n : N) : list N :=
  if n <? 10 then [48 + n]
  else if n <? 100 then [48 + n / 10; 48 + n mod 10]
  else [48 + n / 100; 48 + (n / 10) mod 10; 48 + n mod 10].

(** [it.next().unwrap()] repeated [n] times: decompiler.rs:76-77 and 90-91. *)
Definition take_exact (n : N) (l : list N) : outcome (list N * list N) :=
  if n <=? lenN l then Ok (firstn (N.to_nat n) l, skipn (N.to_nat n) l) else Panic.

(** src/decompile/decompiler.rs:39-54 and 59-63: the byte after 0x9c and 0xfb. *)
Definition get_name (b : N) : list N :=
  match b with
  | 0x1d => lit "CurrentTime"
  | 0x20 => lit "AccountName"
  | 0x49 => lit "DocumentsPath"
  | 0x5d => lit "DocumentsPathListing"
  | _ => []
  end.
Definition intrinsic_name (b : N) : list N :=
  match b with 0x3 => lit "Char" | _ => [] end.

(** src/decompile/decompiler.rs:18-139 [decompile_calculation], one turn of the loop per fuel;
    each turn consumes at least one byte, so [length + 1] is enough.
    Text bytes are pushed [as char] and read with [as_bytes], so bytes from 128 on become two bytes. *)
Fixpoint calc_loop (fuel : nat) (l : list N) (result : list N) : outcome (list N) :=
  match fuel with
  | O => NoFuel
  | S fuel' =>
    match l with
    | [] => Ok result
    | c :: l1 =>
      match c with
      | 0x4 => calc_loop fuel' l1 (result ++ lit "(")
      | 0x5 => calc_loop fuel' l1 (result ++ lit ")")
      | 0x2d => calc_loop fuel' l1 (result ++ lit "Abs")
      | 0x9b => calc_loop fuel' l1 (result ++ lit "Get")
      | 0x9c =>
        match l1 with [] => Panic | b :: l2 => calc_loop fuel' l2 (result ++ get_name b) end
      | 0x9d => calc_loop fuel' l1 (result ++ lit "Acos")
      | 0xfb =>
        match l1 with [] => Panic | b :: l2 => calc_loop fuel' l2 (result ++ intrinsic_name b) end
      | 0x10 =>
        b <- at_ l1 8 ;;
        calc_loop fuel' (skipn 19 l1) (result ++ dec3 b)
      | 0x13 =>
        match l1 with
        | [] => Panic
        | n :: l2 =>
          '(t, l3) <- take_exact n l2 ;;
          calc_loop fuel' l3 (result ++ [34] ++ fm_string_decrypt (utf8 t) ++ [34])
        end
      | 0x1a =>
        match l1 with
        | [] => Panic
        | n :: l2 =>
          '(t, l3) <- take_exact n l2 ;;
          calc_loop fuel' l3 (result ++ fm_string_decrypt (utf8 t))
        end
      | 0x25 => calc_loop fuel' l1 (result ++ lit "+")
      | 0x26 => calc_loop fuel' l1 (result ++ lit "-")
      | 0x27 => calc_loop fuel' l1 (result ++ lit "*")
      | 0x28 => calc_loop fuel' l1 (result ++ lit "/")
      | 0x41 => calc_loop fuel' l1 (result ++ lit "<")
      | 0x43 => calc_loop fuel' l1 (result ++ lit "<=")
      | 0x44 => calc_loop fuel' l1 (result ++ lit "==")
      | 0x46 => calc_loop fuel' l1 (result ++ lit "!=")
      | 0x47 => calc_loop fuel' l1 (result ++ lit ">=")
      | 0x49 => calc_loop fuel' l1 (result ++ lit ">")
      | 0x50 => calc_loop fuel' l1 (result ++ lit "&")
      | 0xC => calc_loop fuel' l1 (result ++ lit " ")
      | _ => calc_loop fuel' l1 result
      end
    end
  end.
Definition decompile_calculation (bytecode : list N) : outcome (list N) :=
  calc_loop (S (length bytecode)) bytecode [].

(** What the chunk loop (from decompiler.rs:247 on) carries: the file under construction, the script segments (a [HashMap] of [BTreeMap]s)
    and the queue of data source names. *)
Record dstate := mkD {
  d_file : fmpfile;
  d_segments : list (N * list (N * list N));
  d_names : list (list N);
}.

Definition with_file (s : dstate) (f : fmpfile) : dstate := mkD f (d_segments s) (d_names s).

(** Record updates of [FmpFile], whose fields are changed in decompiler.rs:274-715. *)
Definition set_tables f v := mkFile (f_name f) v (f_relationships f) (f_layouts f) (f_value_lists f) (f_scripts f) (f_occurrences f) (f_sources f) (f_tests f).
Definition set_relationships f v := mkFile (f_name f) (f_tables f) v (f_layouts f) (f_value_lists f) (f_scripts f) (f_occurrences f) (f_sources f) (f_tests f).
Definition set_layouts f v := mkFile (f_name f) (f_tables f) (f_relationships f) v (f_value_lists f) (f_scripts f) (f_occurrences f) (f_sources f) (f_tests f).
Definition set_scripts f v := mkFile (f_name f) (f_tables f) (f_relationships f) (f_layouts f) (f_value_lists f) v (f_occurrences f) (f_sources f) (f_tests f).
Definition set_occurrences f v := mkFile (f_name f) (f_tables f) (f_relationships f) (f_layouts f) (f_value_lists f) (f_scripts f) v (f_sources f) (f_tests f).
Definition set_sources f v := mkFile (f_name f) (f_tables f) (f_relationships f) (f_layouts f) (f_value_lists f) (f_scripts f) (f_occurrences f) v (f_tests f).

(** [x as u16], as in decompiler.rs:274, 275, 292, 344, 345 and 399. *)
Definition as_u16 (n : N) : N := n mod 65536.

(** src/decompile/decompiler.rs:269-281: path 3/17/5/0/251. *)
Definition arm_relation (ch : chunk) (s : dstate) : outcome dstate :=
  if chunk_type_eqb (ctype ch) DataSimple then
    let f := d_file s in
    d <- unwrap (cdata ch) ;;
    b <- at_ d 2 ;;
    let t1 := as_u16 (lenN (f_occurrences f)) in
    if existsb (fun x => (rl_table1 (snd x) =? b) && (rl_table2 (snd x) =? t1)) (f_relationships f)
    then Ok s
    else Ok (with_file s (set_relationships f
           (nset (f_relationships f) (lenN (f_relationships f) + 1) (mkRel t1 [] 0 b [] 0 CEqual))))
  else Ok s.

(** src/decompile/decompiler.rs:283-324: path 3/17/5/0/.. ; [HashMap::len] is the number of keys. *)
Definition arm_occurrence (ch : chunk) (s : dstate) : outcome dstate :=
  let f := d_file s in
  let text := fm_string_decrypt (match cdata ch with Some d => d | None => [0] end) in
  match cref ch with
  | Some 2 =>
    d <- unwrap (cdata ch) ;;
    t <- at_ d 6 ;;
    _ <- at_ d 2 ;;
    Ok (with_file s (set_occurrences f (nset (f_occurrences f) (lenN (f_occurrences f) + 1) (mkOcc [] t [] [] []))))
  | Some 16 =>
    let k := lenN (f_occurrences f) in
    o <- unwrap (nget (f_occurrences f) k) ;;
    Ok (with_file s (set_occurrences f (nset (f_occurrences f) k
          (mkOcc text (oc_table o) (oc_table_name o) (oc_account o) (oc_user o)))))
  | _ => Ok s
  end.

(** src/decompile/decompiler.rs:328-337. *)
Definition comparison_of (b : N) : comparison_kind :=
  match b with
  | 0 => CEqual | 1 => CNotEqual | 2 => CLess | 3 => CLessEqual | 4 => CGreater | 5 => CGreaterEqual | 6 => CCartesian
  | _ => CEqual
  end.

(** src/decompile/decompiler.rs:325-351: path 3/251/5/x/3. *)
Definition arm_relation_fields (x : N) (ch : chunk) (s : dstate) : outcome dstate :=
  match cref ch with
  | Some 1 =>
    let f := d_file s in
    d <- unwrap (cdata ch) ;;
    b <- at_ d 0 ;;
    f1 <- slice d 2 4 ;;
    f1 <- subU (get_path_int f1) 128 ;;
    f2 <- slice d 5 7 ;;
    f2 <- subU (get_path_int f2) 128 ;;
    match nget (f_relationships f) x with
    | Some r =>
      Ok (with_file s (set_relationships f (nset (f_relationships f) x
            (mkRel (rl_table1 r) (rl_table1_name r) (as_u16 f1) (rl_table2 r) (rl_table2_name r) (as_u16 f2) (comparison_of b)))))
    | None => Ok s
    end
  | _ => Ok s
  end.

(** src/decompile/decompiler.rs:356-392: path 4/1/7/x/.. *)
Definition arm_layout (x : N) (ch : chunk) (s : dstate) : outcome dstate :=
  let f := d_file s in
  if chunk_type_eqb (ctype ch) PathPush then
    Ok (with_file s (set_layouts f (nset (f_layouts f) x layout_new)))
  else
    match cref ch with
    | Some 2 =>
      match nget (f_layouts f) x with
      | None => Ok s
      | Some l =>
        d <- unwrap (cdata ch) ;;
        b <- at_ d 1 ;;
        o <- subU b 128 ;;
        Ok (with_file s (set_layouts f (nset (f_layouts f) x (mkLayout (ly_name l) o (ly_account l) (ly_user l)))))
      end
    | Some 16 =>
      match nget (f_layouts f) x with
      | None => Ok s
      | Some l =>
        d <- unwrap (cdata ch) ;;
        Ok (with_file s (set_layouts f (nset (f_layouts f) x
              (mkLayout (fm_string_decrypt d) (ly_occurrence l) (ly_account l) (ly_user l)))))
      end
    | _ => Ok s
    end.

(** Change of one field of one table; both must exist: decompiler.rs:426-454. *)
Definition mod_field (f : fmpfile) (t y : N) (g : field -> field) : outcome fmpfile :=
  tb <- unwrap (nget (f_tables f) t) ;;
  fl <- unwrap (nget (tb_fields tb) y) ;;
  Ok (set_tables f (nset (f_tables f) t
        (mkTable (tb_name tb) (tb_account tb) (tb_user tb) (bset (tb_fields tb) y (g fl)) (tb_init tb)))).

(** src/decompile/decompiler.rs:393-465: path x/3/5/y. *)
Definition arm_field (x y : N) (ch : chunk) (s : dstate) : outcome dstate :=
  if 128 <=? x then
    let f := d_file s in
    let t := x - 128 in
    let y := as_u16 y in
    if chunk_type_eqb (ctype ch) PathPush then
      let tables := if nhas (f_tables f) t then f_tables f else nset (f_tables f) t table_new in
      tb <- unwrap (nget tables t) ;;
      Ok (with_file s (set_tables f (nset tables t
            (mkTable (tb_name tb) (tb_account tb) (tb_user tb) (bset (tb_fields tb) y field_new) (tb_init tb)))))
    else
      let text := fm_string_decrypt (match cdata ch with Some d => d | None => [0] end) in
      match match cref ch with Some k => k | None => 0 end with
      | 2 =>
        f <- mod_field f t y (fun fl => mkField (fl_data_type fl) (fl_description fl) (fl_name fl) text (fl_account fl) (fl_user fl)) ;;
        Ok (with_file s f)
      | 3 =>
        f <- mod_field f t y (fun fl => mkField (fl_data_type fl) text (fl_name fl) (fl_type fl) (fl_account fl) (fl_user fl)) ;;
        Ok (with_file s f)
      | 16 =>
        f <- mod_field f t y (fun fl => mkField (fl_data_type fl) (fl_description fl) text (fl_type fl) (fl_account fl) (fl_user fl)) ;;
        Ok (with_file s f)
      | 129 =>
        f <- mod_field f t y (fun fl => mkField (fl_data_type fl) (fl_description fl) (fl_name fl) (fl_type fl) text (fl_user fl)) ;;
        Ok (with_file s f)
      | 130 =>
        f <- mod_field f t y (fun fl => mkField (fl_data_type fl) (fl_description fl) (fl_name fl) (fl_type fl) (fl_account fl) text) ;;
        Ok (with_file s f)
      | _ => Ok s
      end
  else Ok s.

(** src/decompile/decompiler.rs:472-485: path 3/16/5/x. *)
Definition arm_table (x : N) (ch : chunk) (s : dstate) : outcome dstate :=
  let f := d_file s in
  let text := fm_string_decrypt (match cdata ch with Some d => d | None => [0] end) in
  if chunk_type_eqb (ctype ch) PathPush then
    if nhas (f_tables f) x then Ok s
    else
      t <- subU x 128 ;;
      Ok (with_file s (set_tables f (nset (f_tables f) t table_new)))
  else
    match match cref ch with Some k => k | None => 0 end with
    | 16 =>
      t <- subU x 128 ;;
      tb <- unwrap (nget (f_tables f) t) ;;
      Ok (with_file s (set_tables f (nset (f_tables f) t
            (mkTable text (tb_account tb) (tb_user tb) (tb_fields tb) (tb_init tb)))))
    | _ => Ok s
    end.

(** src/decompile/decompiler.rs:487-499: path 17/5/x/4. *)
Definition arm_segment (x : N) (ch : chunk) (s : dstate) : outcome dstate :=
  match ctype ch with
  | PathPush =>
    if nhas (d_segments s) x then Ok s
    else Ok (mkD (d_file s) (nset (d_segments s) x []) (d_names s))
  | DataSegment =>
    n <- unwrap (csegment ch) ;;
    segs <- unwrap (nget (d_segments s) x) ;;
    d <- unwrap (cdata ch) ;;
    Ok (mkD (d_file s) (nset (d_segments s) x (bset segs n d)) (d_names s))
  | _ => Ok s
  end.

(** decompiler.rs:499-584: push a switch onto the first step with a given index, if its opcode passes; no such step panics ([[0]]). *)
Fixpoint push_switch (steps : list step) (idx : N) (g : step -> outcome step) : outcome (list step) :=
  match steps with
  | [] => Panic
  | st :: rest =>
    if step_index st =? idx then st' <- g st ;; Ok (st' :: rest)
    else rest' <- push_switch rest idx g ;; Ok (st :: rest')
  end.

Definition add_switch (t : list N) (st : step) : step :=
  mkStep (opcode st) (step_index st) (switches st ++ [t]).

Definition mod_steps (s : dstate) (sid : N) (g : list step -> outcome (list step)) : outcome dstate :=
  let f := d_file s in
  sc <- unwrap (nget (f_scripts f) sid) ;;
  steps <- g (sc_steps sc) ;;
  Ok (with_file s (set_scripts f (nset (f_scripts f) sid
        (mkScript (sc_name sc) (sc_account sc) (sc_user sc) (sc_args sc) steps)))).

(** src/decompile/decompiler.rs:500-533: path 17/5/script/5/step/128/5. *)
Definition arm_step_value (sid stp : N) (ch : chunk) (s : dstate) : outcome dstate :=
  let text := fm_string_decrypt (match cdata ch with Some d => d | None => [0] end) in
  match match cref ch with Some k => k | None => 0 end with
  | 5 =>
    mod_steps s sid (fun steps => push_switch steps stp (fun st =>
      if instr_eqb (opcode st) ISetVariable then Ok (add_switch text st)
      else if instr_eqb (opcode st) IExitScript then
        d <- unwrap (cdata ch) ;;
        c <- decompile_calculation d ;;
        Ok (add_switch c st)
      else Ok st))
  | _ => Ok s
  end.

(** src/decompile/decompiler.rs:534-564: path 17/5/script/5/step/128. *)
Definition arm_step_name (sid stp : N) (ch : chunk) (s : dstate) : outcome dstate :=
  let text := fm_string_decrypt (match cdata ch with Some d => d | None => [0] end) in
  match match cref ch with Some k => k | None => 0 end with
  | 1 =>
    mod_steps s sid (fun steps => push_switch steps stp (fun st =>
      if instr_eqb (opcode st) ISetVariable then Ok (add_switch text st) else Ok st))
  | _ => Ok s
  end.

(** src/decompile/decompiler.rs:566-584: path 17/5/script/5/step/129/5. *)
Definition arm_step_calc (sid stp : N) (ch : chunk) (s : dstate) : outcome dstate :=
  s <- match match cref ch with Some k => k | None => 0 end with
       | 5 =>
         d <- unwrap (cdata ch) ;;
         c <- decompile_calculation d ;;
         mod_steps s sid (fun steps => push_switch steps stp (fun st => Ok (add_switch c st)))
       | _ => Ok s
       end ;;
  _ <- unwrap (nget (f_scripts (d_file s)) sid) ;;
  Ok s.

(** [slice.chunks(n)], as in decompiler.rs:174, 590, 620 and 756; [fuel] is the length. *)
Fixpoint chunks_loop (fuel : nat) (n : nat) (l : list N) : list (list N) :=
  match fuel with
  | O => []
  | S fuel' => match l with [] => [] | _ => firstn n l :: chunks_loop fuel' n (skipn n l) end
  end.
Definition chunks (n : nat) (l : list N) : list (list N) := chunks_loop (length l) n l.

(** src/decompile/decompiler.rs:594-612, 624-642, 760-777: one 28-byte step; [None] when the opcode byte is unused. *)
Definition decode_step (scripts : list (N * script)) (ins : list N) : outcome (option step) :=
  b <- at_ ins 21 ;;
  oc <- at_ INSTRUCTIONMAP b ;;
  match oc with
  | None => Ok None
  | Some op =>
    sw <- (if instr_eqb op IPerformScript then
             k <- at_ ins 8 ;;
             sc <- unwrap (nget scripts k) ;;
             Ok [sc_name sc]
           else Ok []) ;;
    n0 <- at_ ins 0 ;;
    ib <- slice ins 2 (n0 + 1) ;;
    Ok (Some (mkStep op (get_path_int ib) sw))
  end.

(** [Vec::insert], as in decompiler.rs:612 and 775. *)
Definition vec_insert {A} (l : list A) (n : N) (x : A) : outcome (list A) :=
  if n <=? lenN l then Ok (firstn (N.to_nat n) l ++ x :: skipn (N.to_nat n) l) else Panic.

(** decompiler.rs:590-612, 620 and 756-775: the loop over the steps of a code block; [insert] says where a decoded step goes. *)
Fixpoint steps_loop (l : list (list N)) (minlen : N) (sid : N) (insert : list step -> step -> outcome (list step))
  (s : dstate) : outcome dstate :=
  match l with
  | [] => Ok s
  | ins :: l' =>
    if minlen <=? lenN ins then
      o <- decode_step (f_scripts (d_file s)) ins ;;
      match o with
      | None => steps_loop l' minlen sid insert s
      | Some st => s <- mod_steps s sid (fun steps => insert steps st) ;; steps_loop l' minlen sid insert s
      end
    else steps_loop l' minlen sid insert s
  end.

(** src/decompile/decompiler.rs:585-654: path 17/5/x/.. *)
Definition arm_script (x : N) (ch : chunk) (s : dstate) : outcome dstate :=
  match ctype ch with
  | PathPop | PathPush => Ok s
  | _ =>
    if match csegment ch with Some 4 => true | _ => false end then
      d <- unwrap (cdata ch) ;;
      steps_loop (chunks 28 d) 21 x (fun steps st => vec_insert steps (step_index st) st) s
    else
      match cref ch with
      | Some 4 =>
        d <- unwrap (cdata ch) ;;
        steps_loop (chunks 28 d) 21 x (fun steps st => Ok (steps ++ [st])) s
      | _ => Ok s
      end
  end.

(** src/decompile/decompiler.rs:656-689: path 17/1/x/y/.. *)
Definition arm_script_name (y : N) (ch : chunk) (s : dstate) : outcome dstate :=
  match ctype ch with
  | RefSimple =>
    match cref ch with
    | Some 16 =>
      let f := d_file s in
      match nget (f_scripts f) y with
      | None =>
        d <- unwrap (cdata ch) ;;
        Ok (with_file s (set_scripts f (nset (f_scripts f) y (mkScript (fm_string_decrypt d) [] [] [] []))))
      | Some sc =>
        let text := fm_string_decrypt (match cdata ch with Some d => d | None => [0] end) in
        Ok (with_file s (set_scripts f (nset (f_scripts f) y
              (mkScript text (sc_account sc) (sc_user sc) (sc_args sc) (sc_steps sc)))))
      end
    | _ => Ok s
    end
  | _ => Ok s
  end.

(** src/decompile/decompiler.rs:691-699: path 32/1/1. *)
Definition arm_source_name (ch : chunk) (s : dstate) : outcome dstate :=
  match ctype ch with
  | DataSimple =>
    d <- unwrap (cdata ch) ;;
    t <- decode_bytes d ;;
    Ok (mkD (d_file s) (d_segments s) (d_names s ++ [t]))
  | _ => Ok s
  end.

(** src/decompile/decompiler.rs:709-744: path 32/5/ds/.. *)
Definition arm_source (ds : N) (ch : chunk) (s : dstate) : outcome dstate :=
  let f := d_file s in
  match ctype ch with
  | PathPush =>
    d <- unwrap (cdata ch) ;;
    let idx := get_int d in
    match d_names s with
    | [] => Ok s
    | n :: rest =>
      Ok (mkD (set_sources f (nset (f_sources f) idx (mkSource n location_new [] []))) (d_segments s) rest)
    end
  | RefSimple =>
    k <- unwrap (cref ch) ;;
    match k with
    | 130 =>
      d <- unwrap (cdata ch) ;;
      if ccode ch =? 6 then
        loc <- location_from_bytes d ;;
        match nget (f_sources f) ds with
        | None => Ok s
        | Some o => Ok (with_file s (set_sources f (nset (f_sources f) ds (mkSource (ds_name o) loc (ds_account o) (ds_user o)))))
        end
      else
        match nget (f_sources f) ds with
        | None => Ok s
        | Some o =>
          Ok (with_file s (set_sources f (nset (f_sources f) ds
                (mkSource (ds_name o) (ds_location o) (ds_account o) (fm_string_decrypt d)))))
        end
    | _ => Ok s
    end
  | _ => Ok s
  end.

(** src/decompile/decompiler.rs:267-746, the [match] on the path after the chunk. The order of the arms is kept.
    Arms that only bind unused values (4/5/.., 3/16/1/1, 32/1/3) do nothing. Path elements come from
    [usize::to_string], so [parse] always succeeds. *)
Definition dispatch (path : list N) (ch : chunk) (s : dstate) : outcome dstate :=
  match path with
  | [3; 17; 5; 0; 251] => arm_relation ch s
  | 3 :: 17 :: 5 :: 0 :: _ => arm_occurrence ch s
  | [3; 251; 5; x; 3] => arm_relation_fields x ch s
  | 4 :: 5 :: _ => Ok s
  | 4 :: 1 :: 7 :: x :: _ => arm_layout x ch s
  | [x; 3; 5; y] => arm_field x y ch s
  | [3; 16; 1; 1] => Ok s
  | [3; 16; 5; x] => arm_table x ch s
  | [17; 5; x; 4] => arm_segment x ch s
  | [17; 5; sid; 5; stp; 128; 5] => arm_step_value sid stp ch s
  | [17; 5; sid; 5; stp; 128] => arm_step_name sid stp ch s
  | [17; 5; sid; 5; stp; 129; 5] => arm_step_calc sid stp ch s
  | 17 :: 5 :: x :: _ => arm_script x ch s
  | 17 :: 1 :: x :: y :: _ => arm_script_name y ch s
  | [32; 1; 1] => arm_source_name ch s
  | [32; 1; 3] => Ok s
  | 32 :: 5 :: ds :: _ => arm_source ds ch s
  | _ => Ok s
  end.

(** src/decompile/decompiler.rs:259-747, [while offset < bound]. *)
Fixpoint chunk_loop (fuel : nat) (buffer : list N) (offset bound start : N) (path : list N) (s : dstate) : outcome dstate :=
  match fuel with
  | O => NoFuel
  | S fuel' =>
    if offset <? bound then
      r <- get_chunk buffer offset path start ;;
      match r with
      | RErr _ => Panic
      | ROk (ch, offset', path') =>
        s' <- dispatch path' ch s ;;
        chunk_loop fuel' buffer offset' bound start path' s'
      end
    else Ok s
  end.

(** src/decompile/decompiler.rs:249-749, [while idx != 0]. [sectors] has [first.next + 1] entries; of the
    stored sectors only [next] is used. The slice [&buffer[offset..]] panics beyond the end. *)
Fixpoint sector_loop (fuel : nat) (buffer : list N) (n_sectors idx : N) (s : dstate) : outcome dstate :=
  match fuel with
  | O => NoFuel
  | S fuel' =>
    if idx =? 0 then Ok s
    else
      let start := idx * 4096 in
      rest <- slice buffer start (lenN buffer) ;;
      sec <- get_sector rest ;;
      if idx <? n_sectors then
        s <- chunk_loop fuel buffer (start + 20) (start + 4096) start [] s ;;
        sector_loop fuel' buffer n_sectors (s_next sec) s
      else Panic
  end.

(** src/decompile/decompiler.rs:751-779, one entry of [script_segments]. *)
Definition build_script (sid : N) (segs : list (N * list N)) (s : dstate) : outcome dstate :=
  steps_loop (chunks 28 (concat (map snd segs))) 28 sid (fun steps st => Ok (steps ++ [st])) s.

(** src/decompile/decompiler.rs:750-779: the loop over [script_segments] in some order. *)
Fixpoint build_scripts (l : list (N * list (N * list N))) (s : dstate) : outcome dstate :=
  match l with
  | [] => Ok s
  | (sid, segs) :: l' => s <- build_script sid segs s ;; build_scripts l' s
  end.

(** src/decompile/decompiler.rs:223-787 [decompile_fmp12_file] on the contents of the file.
    [order] is the iteration order of the hash map of segments. *)
Definition decompile (order : list (N * list (N * list N)) -> list (N * list (N * list N)))
  (fuel : nat) (buffer : list N) : outcome fmpfile :=
  rest <- slice buffer 4096 (lenN buffer) ;;
  first <- get_sector rest ;;
  s <- sector_loop fuel buffer (s_next first + 1) 2 (mkD fmpfile_new [] []) ;;
  s <- build_scripts (order (d_segments s)) s ;;
  Ok (d_file s).
