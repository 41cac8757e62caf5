(** Model of the test runner: /repo/src/testing/test.rs (lines 99-467) and /repo/src/testing/layout_mgr.rs.

    Not modelled: what is printed, except the outcome of each test; [punc_stack], which only decides whether a message is
    printed; overflow of [usize] instruction pointers. *)
From Coq Require Import Ascii String NArith List Bool.
From Verif Require Import Prelude StrOrder InstrModel ComponentModel CalcModel DbModel EvalModel EvalCycle.
Import ListNotations.
Local Open Scope N_scope.

(** layout_mgr.rs:3-21 [LayoutMgr], [new], [add_mapping] and [lookup]. *)
Definition layouts : Type := list (list N * N).
Definition layouts_new : layouts := [].
Definition add_mapping (m : layouts) (name : list N) (o : N) : layouts := sset m name o.
Definition layout_lookup (m : layouts) (name : list N) : option N := sget m name.

(** test.rs:71-96 [TestEnvironment].  The vectors [instruction_ptr] and [loop_scopes] are kept with their last element first.
    [vm_pass] is [test_state == Pass], [vm_find] is [mode == Find]; of a [Variable] only the value is kept. *)
Record vm := mkVm {
  vm_ip : list (list N * N);
  vm_vars : list scope;
  vm_test : option test;
  vm_loops : list N;
  vm_pass : bool;
  vm_branch : bool;
  vm_find : bool;
  vm_db : db;
  vm_layouts : layouts;
  vm_criteria : list (list N * list N);
}.

(** test.rs:99-114 [new]. *)
Definition vm_new : vm := mkVm [] [] None [] true false false db_new layouts_new [].

(** Assignments to one field of the environment, in test.rs:99-467. *)
Definition with_ip (s : vm) (x : list (list N * N)) : vm :=
  mkVm x (vm_vars s) (vm_test s) (vm_loops s) (vm_pass s) (vm_branch s) (vm_find s) (vm_db s) (vm_layouts s) (vm_criteria s).
Definition with_vars (s : vm) (x : list scope) : vm :=
  mkVm (vm_ip s) x (vm_test s) (vm_loops s) (vm_pass s) (vm_branch s) (vm_find s) (vm_db s) (vm_layouts s) (vm_criteria s).
Definition with_test (s : vm) (x : option test) : vm :=
  mkVm (vm_ip s) (vm_vars s) x (vm_loops s) (vm_pass s) (vm_branch s) (vm_find s) (vm_db s) (vm_layouts s) (vm_criteria s).
Definition with_loops (s : vm) (x : list N) : vm :=
  mkVm (vm_ip s) (vm_vars s) (vm_test s) x (vm_pass s) (vm_branch s) (vm_find s) (vm_db s) (vm_layouts s) (vm_criteria s).
Definition with_pass (s : vm) (x : bool) : vm :=
  mkVm (vm_ip s) (vm_vars s) (vm_test s) (vm_loops s) x (vm_branch s) (vm_find s) (vm_db s) (vm_layouts s) (vm_criteria s).
Definition with_branch (s : vm) (x : bool) : vm :=
  mkVm (vm_ip s) (vm_vars s) (vm_test s) (vm_loops s) (vm_pass s) x (vm_find s) (vm_db s) (vm_layouts s) (vm_criteria s).
Definition with_find (s : vm) (x : bool) : vm :=
  mkVm (vm_ip s) (vm_vars s) (vm_test s) (vm_loops s) (vm_pass s) (vm_branch s) x (vm_db s) (vm_layouts s) (vm_criteria s).
Definition with_db (s : vm) (x : db) : vm :=
  mkVm (vm_ip s) (vm_vars s) (vm_test s) (vm_loops s) (vm_pass s) (vm_branch s) (vm_find s) x (vm_layouts s) (vm_criteria s).
Definition with_layouts (s : vm) (x : layouts) : vm :=
  mkVm (vm_ip s) (vm_vars s) (vm_test s) (vm_loops s) (vm_pass s) (vm_branch s) (vm_find s) (vm_db s) x (vm_criteria s).
Definition with_criteria (s : vm) (x : list (list N * list N)) : vm :=
  mkVm (vm_ip s) (vm_vars s) (vm_test s) (vm_loops s) (vm_pass s) (vm_branch s) (vm_find s) (vm_db s) (vm_layouts s) x.

(** [self.instruction_ptr[n_stack].1 = i], [n_stack] being the last index; and [+= 1]: test.rs:213-459. *)
Definition jump (s : vm) (i : N) : vm :=
  match vm_ip s with (n, _) :: fs => with_ip s ((n, i) :: fs) | [] => s end.
Definition here (s : vm) : N := match vm_ip s with (_, i) :: _ => i | [] => 0 end.
Definition advance (s : vm) : vm := jump s (here s + 1).

(** What the evaluator (test.rs:469-898) reads of the environment. *)
Definition view_of (s : vm) : view := mkView (vm_db s) (vm_vars s) (lenN (vm_ip s)).

(** test.rs:245: [value.parse::<usize>()], with 64 bits. *)
Definition parse_usize : list N -> option N := parse_unsigned 18446744073709551616.

(** test.rs:271-276 and 405-409: the instruction after the first EndLoop; [l] are the instructions from [i] on. *)
Fixpoint past_end_loop (l : list step) (i : N) : outcome N :=
  match l with
  | [] => Panic
  | s :: l' => match opcode s with IEndLoop => Ok (i + 1) | _ => past_end_loop l' (i + 1) end
  end.

(** The loops of test.rs:346-360, 366-373, 383-395 and 402-409: the index of the first instruction among [l], which starts at [i], with an opcode in a set. *)
Fixpoint scan (p : instruction -> bool) (l : list step) (i : N) : option N :=
  match l with
  | [] => None
  | s :: l' => if p (opcode s) then Some i else scan p l' (i + 1)
  end.
Definition is_end_if (o : instruction) : bool := match o with IEndIf => true | _ => false end.
Definition is_clause (o : instruction) : bool := match o with IEndIf | IElse | IElseIf => true | _ => false end.

(** test.rs:279-297: [HashSet::extend], [Vec::from_iter] and [sort]: ascending, without duplicates. *)
Fixpoint insert_number (n : N) (l : list N) : list N :=
  match l with
  | [] => [n]
  | m :: l' => if n <? m then n :: l else if n =? m then l else m :: insert_number n l'
  end.
Definition sort_numbers (l : list N) : list N := fold_right insert_number [] l.

Section Run.
Context (E : fenv) (file : fmpfile).

(** test.rs:469-... [eval_calculation].  The fuel is that of [calculation_decided] (EvalFuel): with it, running out of fuel
    is unbounded recursion, and exhausts the stack. *)
Definition calc (s : vm) (text : list N) : outcome (list N) :=
  match eval_calculation E (view_of s) (S (length (held (view_of s)))) text with NoFuel => Panic | o => o end.

(** The loop over [file_handle.scripts] in test.rs:184-189 and 208-215: the first script with that name. *)
Definition find_script (name : list N) : option script :=
  find (fun sc => str_eqb (sc_name sc) name) (vals (f_scripts file)).

(** test.rs:183-192: the running script. *)
Definition running (s : vm) : outcome script :=
  match vm_ip s with
  | [] => Panic
  | [_] => t <- unwrap (vm_test s) ;; Ok (te_script t)
  | (name, _) :: _ => Ok (match find_script name with Some sc => sc | None => script_new end)
  end.

(** test.rs:246-258: moving the record pointer. *)
Definition move_record (d : db) (val : list N) : outcome db :=
  match parse_usize val with
  | Some n => goto_record d n
  | None =>
    if str_eqb val (34 :: lit "previous" ++ [34]) then goto_previous_record d
    else if str_eqb val (34 :: lit "next" ++ [34]) then goto_next_record d
    else if str_eqb val (34 :: lit "first" ++ [34]) then goto_first_record d
    else if str_eqb val (34 :: lit "last" ++ [34]) then goto_last_record d
    else Ok d
  end.

(** test.rs:279-297: the records found by one criterion. *)
Definition matching (d : db) (c : list N * list N) : outcome (list N) :=
  field <- at_ (split (fst c)) 1 ;;
  values <- get_field_vals_for_current_table d field ;;
  Ok (map fst (filter (fun e => str_eqb (snd e) (snd c)) (enumerate values))).
Fixpoint matching_any (d : db) (cs : list (list N * list N)) : outcome (list N) :=
  match cs with
  | [] => Ok []
  | c :: cs' => ids <- matching d c ;; rest <- matching_any d cs' ;; Ok (ids ++ rest)
  end.

(** test.rs:176-463 [step], here [vm_step]. *)
Definition vm_step (s : vm) : outcome vm :=
  _ <- unwrap (vm_test s) ;;
  sc <- running s ;;
  let steps := sc_steps sc in
  let ip := here s in
  match nthN steps ip with
  | None => Ok (with_ip s (tl (vm_ip s)))
  | Some cur =>
    match opcode cur with
    | IPerformScript =>
      a <- at_ (switches cur) 0 ;;
      v <- calc s a ;;
      v <- unwrap (strip_suffix v) ;;
      name <- unwrap (strip_prefix v) ;;
      let s := with_vars s (vm_vars s ++ [[]]) in
      match find_script name with
      | Some _ => let s := advance s in Ok (with_ip s ((name, 0) :: vm_ip s))
      | None => Ok s
      end
    | IGoToLayout =>
      a <- at_ (switches cur) 0 ;;
      v <- calc s a ;;
      v <- unwrap (strip_prefix v) ;;
      name <- unwrap (strip_suffix v) ;;
      let s := match layout_lookup (vm_layouts s) name with
               | Some o => with_db s (set_current_occurrence (vm_db s) (as_u16 o))
               | None => s
               end in
      Ok (advance s)
    | IGoToRecordRequestPage =>
      a <- at_ (switches cur) 0 ;;
      val <- calc s a ;;
      exit <- (match nthN (switches cur) 1 with
               | None => Ok false
               | Some b =>
                 res <- calc s b ;;
                 Ok (negb (str_eqb res (lit "false")) || negb (str_eqb res []) || negb (str_eqb res (lit "0")))
               end) ;;
      if vm_find s then Ok (advance s)
      else
        o <- get_current_occurrence (vm_db s) ;;
        d <- move_record (vm_db s) val ;;
        let s := with_db s d in
        if exit then
          o' <- get_current_occurrence d ;;
          if to_ptr o' =? to_ptr o
          then i <- past_end_loop (skipn (N.to_nat ip) steps) ip ;; Ok (jump s i)
          else Ok (advance s)
        else Ok (advance s)
    | IEnterFindMode => Ok (advance (with_find s true))
    | IUnsortRecords => Ok (advance s)
    | IPerformFind =>
      ids <- matching_any (vm_db s) (vm_criteria s) ;;
      d <- update_found_set (vm_db s) (sort_numbers ids) ;;
      Ok (advance (with_criteria (with_find (with_db s d) false) []))
    | IShowAllRecords =>
      d <- reset_found_set (vm_db s) ;;
      Ok (advance (with_db s d))
    | ISetVariable =>
      name <- at_ (switches cur) 0 ;;
      b <- at_ (switches cur) 1 ;;
      v <- calc s b ;;
      let n_stack := lenN (vm_ip s) - 1 in
      sp <- at_ (vm_vars s) n_stack ;;
      Ok (advance (with_vars s (updateN (vm_vars s) n_stack (fun _ => sset sp name v))))
    | ISetField =>
      name <- at_ (switches cur) 0 ;;
      b <- at_ (switches cur) 1 ;;
      v <- calc s b ;;
      let parts := split name in
      if vm_find s then Ok (advance (with_criteria s (vm_criteria s ++ [(name, v)])))
      else
        p0 <- at_ parts 0 ;;
        p1 <- at_ parts 1 ;;
        r <- get_current_record_by_table_field_mut (vm_db s) p0 p1 ;;
        match r with
        | RErr _ => Panic
        | ROk p => d <- write_place (vm_db s) p v ;; Ok (advance (with_db s d))
        end
    | ILoop => Ok (advance (with_loops s (ip :: vm_loops s)))
    | IIf =>
      a <- at_ (switches cur) 0 ;;
      val <- calc s a ;;
      if str_eqb val (lit "true") then Ok (with_branch (advance s) true)
      else Ok (jump s (match scan is_clause (skipn (N.to_nat ip) steps) ip with Some j => j | None => lenN steps end))
    | IElseIf =>
      let taken (s : vm) (cur : step) : outcome vm :=
        a <- at_ (switches cur) 0 ;;
        val <- calc s a ;;
        let s := advance s in
        if str_eqb val (lit "true") then Ok (with_branch s true)
        else
          let ip := here s in
          match scan is_clause (skipn (N.to_nat ip) steps) ip with
          | Some j => Ok (jump s j)
          | None => Ok (jump s (N.max ip (lenN steps)))
          end in
      if vm_branch s then
        match scan is_end_if (skipn (N.to_nat ip) steps) ip with
        | Some j => Ok (with_branch (jump s j) false)
        | None => cur <- at_ steps (lenN steps - 1) ;; taken (jump s (lenN steps)) cur
        end
      else taken s cur
    | IElse =>
      if vm_branch s then
        match scan is_end_if (skipn (N.to_nat ip) steps) ip with
        | Some j => Ok (with_branch (jump s j) false)
        | None => Ok (jump s (lenN steps + 1))
        end
      else Ok (advance s)
    | IEndIf => Ok (advance (with_branch s false))
    | IEndLoop =>
      l <- unwrap (hd_error (vm_loops s)) ;;
      Ok (jump s (l + 1))
    | IExitLoopIf =>
      a <- at_ (switches cur) 0 ;;
      val <- calc s a ;;
      if str_eqb val (lit "true")
      then i <- past_end_loop (skipn (N.to_nat ip) steps) ip ;; Ok (jump s i)
      else Ok (advance s)
    | INewRecordRequest =>
      d <- create_record (vm_db s) ;;
      Ok (advance (with_db s d))
    | IShowCustomDialog =>
      a <- at_ (switches cur) 0 ;;
      _ <- calc s a ;;
      Ok (advance s)
    | IAssert =>
      a <- at_ (switches cur) 0 ;;
      val <- calc s a ;;
      Ok (advance (if str_eqb val (lit "false") then with_pass s false else s))
    | _ => Ok (advance s)
    end
  end.

(** test.rs:169-174 [load_test]. *)
Definition load_test (s : vm) (t : test) : vm :=
  let s := with_test s (Some t) in
  let s := with_ip s ((sc_name (te_script t), 0) :: vm_ip s) in
  with_vars s (vm_vars s ++ [[]]).

(** test.rs:138-140 and 156-158: the loop that runs one test. *)
Fixpoint run_test (fuel : nat) (s : vm) : outcome vm :=
  match vm_pass s, vm_ip s with
  | true, _ :: _ => match fuel with O => NoFuel | S fuel => s <- vm_step s ;; run_test fuel s end
  | _, _ => Ok s
  end.

(** test.rs:132-147 [run_tests]; the result has the reported outcomes. *)
Fixpoint run_tests_loop (fuel : nat) (ts : list test) (s : vm) : outcome (list (list N * bool) * vm) :=
  match ts with
  | [] => Ok ([], s)
  | t :: ts =>
    s <- run_test fuel (load_test s t) ;;
    ' (rs, s') <- run_tests_loop fuel ts s ;;
    Ok ((te_name t, vm_pass s) :: rs, s')
  end.
Definition run_tests (fuel : nat) (s : vm) : outcome (list (list N * bool) * vm) := run_tests_loop fuel (f_tests file) s.

(** test.rs:149-167 [run_tests_with_cleanup]. *)
Definition run_tests_with_cleanup (fuel : nat) (s : vm) : outcome (list (list N * bool) * vm) :=
  ' (rs, s) <- run_tests fuel s ;;
  Ok (rs, with_db s (clear_records (vm_db s))).

(** test.rs:116-118 [generate_database]. *)
Definition generate_database (s : vm) : outcome vm :=
  d <- generate_from_fmp12 (vm_db s) file ;; Ok (with_db s d).

(** test.rs:120-124 [generate_layout_mgr]; the order of the list stands for that of the HashMap. *)
Definition generate_layout_mgr (s : vm) : vm :=
  with_layouts s (fold_left (fun m e => add_mapping m (ly_name (snd e)) (ly_occurrence (snd e))) (f_layouts file) (vm_layouts s)).

(** test.rs:126-129 [generate_test_environment]. *)
Definition generate_test_environment (s : vm) : outcome vm :=
  s <- generate_database s ;; Ok (generate_layout_mgr s).

(** test.rs:465-467 [get_variable_by_name]. *)
Definition get_variable_by_name (s : vm) (n : N) (var : list N) : outcome (option (list N)) :=
  sp <- at_ (vm_vars s) n ;; Ok (sget sp var).

End Run.
