(** Decompiling an arbitrary file gives what its records say. *)
From Coq Require Import NArith Arith List Bool Lia.
From Verif Require Import Prelude PreludeFacts Utf8 EncodingModel CharConvModel ChunkModel InstrModel ComponentModel DecompModel DecompSpec
  DecompScriptSpec DecompScript HistorySpec.
Import ListNotations.
Local Open Scope N_scope.

(** ** Running over a history *)
Fixpoint run_history (h : history) (s : dstate) : outcome dstate :=
  match h with [] => Ok s | (p, ch) :: r => s <- dispatch p ch s ;; run_history r s end.

Lemma run_app h1 : forall h2 s, run_history (h1 ++ h2) s = bind (run_history h1 s) (run_history h2).
Proof.
  induction h1 as [|[p ch] h1 IH]; intros h2 s; [reflexivity|]. cbn [app run_history].
  destruct (dispatch p ch s); cbn [bind]; auto.
Qed.

Definition at_arm (p : place) (ch : chunk) (s : dstate) (other : outcome dstate) : outcome dstate :=
  match p with
  | PJoin => arm_relation ch s
  | POccurrence => arm_occurrence ch s
  | PJoinFields x => arm_relation_fields x ch s
  | PLayout x => arm_layout x ch s
  | PField x y => arm_field x y ch s
  | PTable x => arm_table x ch s
  | PScript y => arm_script_name y ch s
  | PSourceName => arm_source_name ch s
  | PSource k => arm_source k ch s
  | PElsewhere => other
  end.

Lemma dispatch_place path ch s : at_arm (place_of path) ch s (dispatch path ch s) = dispatch path ch s.
Proof.
  unfold dispatch, place_of.
  repeat match goal with |- context [match ?x with _ => _ end] => is_var x; destruct x end; try reflexivity.
Qed.

(** ** What each arm leaves alone *)
Definition keeps {A} (c : dstate -> A) (s : dstate) (x : outcome dstate) : Prop := forall s', x = Ok s' -> c s' = c s.

Lemma keeps_bind {A B} (c : dstate -> B) s (x : outcome A) k : (forall a, x = Ok a -> keeps c s (k a)) -> keeps c s (bind x k).
Proof. intros H s' E. destruct x; cbn [bind] in E; try discriminate. now apply (H a). Qed.
Lemma keeps_ok {B} (c : dstate -> B) s : keeps c s (Ok s).
Proof. intros s' [= <-]. reflexivity. Qed.
Lemma keeps_panic {B} (c : dstate -> B) s : keeps c s Panic.
Proof. intros s' [=]. Qed.

Definition lay (s : dstate) := f_layouts (d_file s).
Definition tab (s : dstate) := f_tables (d_file s).
Definition occ (s : dstate) := f_occurrences (d_file s).
Definition rls (s : dstate) := f_relationships (d_file s).
Definition src (s : dstate) := (f_sources (d_file s), d_names s).
Definition nam (s : dstate) := f_scripts (d_file s).

Lemma keeps_mod_field {B} (c : dstate -> B) s t y g : (forall v, c (with_file s (set_tables (d_file s) v)) = c s) ->
  keeps c s (f <- mod_field (d_file s) t y g ;; Ok (with_file s f)).
Proof.
  intros H s' E. unfold mod_field in E. destruct (nget (f_tables (d_file s)) t) as [tb|]; [|discriminate]. cbn [unwrap bind] in E.
  destruct (nget (tb_fields tb) y); [|discriminate]. cbn [unwrap bind] in E. injection E as <-. apply H.
Qed.

Ltac kp := repeat first
  [ apply keeps_ok | apply keeps_panic
  | let H := fresh in intros ? H; injection H as <-; reflexivity
  | apply keeps_mod_field; intros; reflexivity
  | apply keeps_bind; intros ? ?
  | match goal with |- keeps _ _ (match ?x with _ => _ end) => destruct x end ].

Lemma keeps_mod {B} (c : dstate -> B) s sid g : (forall v, c (with_file s (set_scripts (d_file s) v)) = c s) -> keeps c s (mod_steps s sid g).
Proof. intros H. unfold mod_steps. apply keeps_bind; intros. apply keeps_bind; intros. intros s' [= <-]. apply H. Qed.

Lemma keeps_steps {B} (c : dstate -> B) l : (forall s v, c (with_file s (set_scripts (d_file s) v)) = c s) ->
  forall m sid ins s, keeps c s (steps_loop l m sid ins s).
Proof.
  intros Hc. induction l as [|b l IH]; intros m sid ins s; cbn [steps_loop]; [apply keeps_ok|].
  destruct (_ <=? _); [|apply IH]. apply keeps_bind. intros [st|] _; [|apply IH].
  intros s' H. destruct (mod_steps s sid _) as [s1| |] eqn:M; try discriminate. cbn [bind] in H.
  apply IH in H. apply (keeps_mod c) in M; auto. congruence.
Qed.

(** The arms that only work on steps and segments. *)
Lemma keeps_elsewhere {B} (c : dstate -> B) path ch s :
  (forall s v, c (with_file s (set_scripts (d_file s) v)) = c s) -> (forall s v, c (mkD (d_file s) v (d_names s)) = c s) ->
  place_of path = PElsewhere -> keeps c s (dispatch path ch s).
Proof.
  intros H1 H2 P.
  assert (A7 : forall x, keeps c s (arm_segment x ch s)).
  { intros. unfold arm_segment. destruct (ctype ch); try apply keeps_ok.
    all: try (destruct (nhas (d_segments s) x); [apply keeps_ok|]; intros s' [= <-]; apply H2).
    all: repeat (apply keeps_bind; intros ? ?); intros s' [= <-]; apply H2. }
  assert (KM : forall sid g, keeps c s (mod_steps s sid g)) by (intros; now apply keeps_mod).
  assert (A8 : forall x y, keeps c s (arm_step_value x y ch s)).
  { intros. unfold arm_step_value. cbv zeta. repeat (match goal with |- keeps _ _ (match ?x with _ => _ end) => destruct x end; try apply keeps_ok). apply KM. }
  assert (A9 : forall x y, keeps c s (arm_step_name x y ch s)).
  { intros. unfold arm_step_name. cbv zeta. repeat (match goal with |- keeps _ _ (match ?x with _ => _ end) => destruct x end; try apply keeps_ok). apply KM. }
  assert (A10 : forall x y, keeps c s (arm_step_calc x y ch s)).
  { intros. unfold arm_step_calc. intros s1 H.
    match type of H with bind ?X _ = _ => assert (K : keeps c s X) end.
    { repeat (match goal with |- keeps _ _ (match ?x with _ => _ end) => destruct x end; try apply keeps_ok).
      apply keeps_bind; intros; apply keeps_bind; intros; apply KM. }
    match type of H with bind ?X _ = _ => destruct X as [s2| |]; try discriminate end.
    cbn [bind] in H. destruct (nget _ x); try discriminate. injection H as <-. now apply K. }
  assert (A11 : forall x, keeps c s (arm_script x ch s)).
  { intros. unfold arm_script. destruct (ctype ch); try apply keeps_ok.
    all: match goal with |- keeps _ _ (if ?c then _ else _) => destruct c end; [apply keeps_bind; intros; now apply keeps_steps|].
    all: repeat (match goal with |- keeps _ _ (match ?x with _ => _ end) => destruct x end; try apply keeps_ok).
    all: apply keeps_bind; intros; now apply keeps_steps. }
  revert P. unfold dispatch, place_of.
  repeat match goal with |- context [match ?x with _ => _ end] => is_var x; destruct x end; try discriminate; intros _; auto; apply keeps_ok.
Qed.

Ltac arms path ch s D := rewrite <- dispatch_place in D; unfold at_arm in D.

Lemma frame_lay path ch s s' : dispatch path ch s = Ok s' ->
  match place_of path with PLayout x => arm_layout x ch s = Ok s' | _ => lay s' = lay s end.
Proof.
  intros D. pose proof (keeps_elsewhere lay path ch s) as E. rewrite <- dispatch_place in D. destruct (place_of path) eqn:P; cbn [at_arm] in D; auto.
  all: revert D; match goal with |- ?x = Ok _ -> _ => change (x = Ok s' -> lay s' = lay s); assert (K : keeps lay s x);
    [|exact (K s')] end.
  all: try (unfold arm_relation, arm_occurrence, arm_relation_fields, arm_field, arm_table, arm_script_name, arm_source_name, arm_source; cbv zeta; kp; fail).
  apply E; auto.
Qed.

Lemma frame_tab path ch s s' : dispatch path ch s = Ok s' ->
  match place_of path with PTable x => arm_table x ch s = Ok s' | PField x y => arm_field x y ch s = Ok s' | _ => tab s' = tab s end.
Proof.
  intros D. pose proof (keeps_elsewhere tab path ch s) as E. rewrite <- dispatch_place in D. destruct (place_of path) eqn:P; cbn [at_arm] in D; auto.
  all: revert D; match goal with |- ?x = Ok _ -> _ => change (x = Ok s' -> tab s' = tab s); assert (K : keeps tab s x);
    [|exact (K s')] end.
  all: try (unfold arm_relation, arm_occurrence, arm_relation_fields, arm_layout, arm_script_name, arm_source_name, arm_source; cbv zeta; kp; fail).
  apply E; auto.
Qed.

Lemma frame_occ path ch s s' : dispatch path ch s = Ok s' ->
  match place_of path with POccurrence => arm_occurrence ch s = Ok s' | _ => occ s' = occ s end.
Proof.
  intros D. pose proof (keeps_elsewhere occ path ch s) as E. rewrite <- dispatch_place in D. destruct (place_of path) eqn:P; cbn [at_arm] in D; auto.
  all: revert D; match goal with |- ?x = Ok _ -> _ => change (x = Ok s' -> occ s' = occ s); assert (K : keeps occ s x);
    [|exact (K s')] end.
  all: try (unfold arm_relation, arm_relation_fields, arm_layout, arm_field, arm_table, arm_script_name, arm_source_name, arm_source; cbv zeta; kp; fail).
  apply E; auto.
Qed.

Lemma frame_rls path ch s s' : dispatch path ch s = Ok s' ->
  match place_of path with PJoin => arm_relation ch s = Ok s' | PJoinFields x => arm_relation_fields x ch s = Ok s' | _ => rls s' = rls s end.
Proof.
  intros D. pose proof (keeps_elsewhere rls path ch s) as E. rewrite <- dispatch_place in D. destruct (place_of path) eqn:P; cbn [at_arm] in D; auto.
  all: revert D; match goal with |- ?x = Ok _ -> _ => change (x = Ok s' -> rls s' = rls s); assert (K : keeps rls s x);
    [|exact (K s')] end.
  all: try (unfold arm_occurrence, arm_layout, arm_field, arm_table, arm_script_name, arm_source_name, arm_source; cbv zeta; kp; fail).
  apply E; auto.
Qed.

Lemma frame_src path ch s s' : dispatch path ch s = Ok s' ->
  match place_of path with PSourceName => arm_source_name ch s = Ok s' | PSource x => arm_source x ch s = Ok s' | _ => src s' = src s end.
Proof.
  intros D. pose proof (keeps_elsewhere src path ch s) as E. rewrite <- dispatch_place in D. destruct (place_of path) eqn:P; cbn [at_arm] in D; auto.
  all: revert D; match goal with |- ?x = Ok _ -> _ => change (x = Ok s' -> src s' = src s); assert (K : keeps src s x);
    [|exact (K s')] end.
  all: try (unfold arm_relation, arm_relation_fields, arm_occurrence, arm_layout, arm_field, arm_table, arm_script_name; cbv zeta; kp; fail).
  apply E; auto.
Qed.

(** ** One more record *)
Lemma after_last_snoc p h e : after_last p (h ++ [e]) =
  if p e then Some [] else match after_last p h with Some r => Some (r ++ [e]) | None => None end.
Proof.
  induction h as [|a h IH]; cbn [app after_last]; [reflexivity|]. rewrite IH.
  destruct (p e); [reflexivity|]. destruct (after_last p h); [reflexivity|]. destruct (p a); reflexivity.
Qed.

Lemma last_of_snoc {A} (g : entry -> option A) h e : forall d, last_of g d (h ++ [e]) = match g e with Some v => v | None => last_of g d h end.
Proof. induction h as [|a h IH]; intros d; cbn [app last_of]; [reflexivity|]. apply IH. Qed.

Lemma existsb_snoc {A} (p : A -> bool) h e : existsb p (h ++ [e]) = existsb p h || p e.
Proof. rewrite existsb_app. cbn. now rewrite orb_false_r. Qed.

Lemma type_eqb_push ch : chunk_type_eqb (ctype ch) PathPush = match ctype ch with PathPush => true | _ => false end.
Proof. destruct (ctype ch); reflexivity. Qed.
Lemma type_eqb_simple ch : chunk_type_eqb (ctype ch) DataSimple = match ctype ch with DataSimple => true | _ => false end.
Proof. destruct (ctype ch); reflexivity. Qed.

(** A [match] on a key, as a test. *)
Lemma key_cases (o : option N) (k : N) : o = Some k \/ o <> Some k.
Proof. destruct o as [n|]; [|right; discriminate]. destruct (N.eq_dec n k); [left|right]; congruence. Qed.

Lemma has_key_some k p ch : has_key k (p, ch) = true <-> cref ch = Some k.
Proof. unfold has_key. cbn [snd]. destruct (cref ch); [rewrite N.eqb_eq|]; split; congruence. Qed.
Lemma has_key_other k p ch : cref ch <> Some k -> has_key k (p, ch) = false.
Proof. intros H. destruct (has_key k (p, ch)) eqn:E; [|reflexivity]. now apply has_key_some in E. Qed.
Lemma has_key_is k k' p ch : cref ch = Some k -> has_key k' (p, ch) = (k =? k').
Proof. intros H. unfold has_key. cbn [snd]. now rewrite H. Qed.

(** Two layouts read differ in nothing but the record. *)
Definition layout_upd (k : N) (e : entry) (l : layout) : layout :=
  mkLayout (if layout_here k e && has_key 16 e then text_of e else ly_name l)
           (if layout_here k e && has_key 2 e then match byte_of e 1 with Some b => b - 128 | None => ly_occurrence l end else ly_occurrence l) [] [].

Lemma layout_of_snoc k h e : layout_of k (h ++ [e]) =
  if layout_here k e && enters e then Some (mkLayout [] 0 [] []) else option_map (layout_upd k e) (layout_of k h).
Proof.
  unfold layout_of. rewrite after_last_snoc. destruct (_ && enters e); [reflexivity|].
  destruct (after_last _ h) as [r|]; [|reflexivity]. cbn [option_map]. rewrite !last_of_snoc. unfold layout_upd. cbn [ly_name ly_occurrence].
  unfold when. destruct (layout_here k e && has_key 16 e), (layout_here k e && has_key 2 e); try reflexivity; destruct (byte_of e 1); reflexivity.
Qed.
Lemma layout_of_plain k h l : layout_of k h = Some l -> ly_account l = [] /\ ly_user l = [].
Proof. unfold layout_of. destruct (after_last _ h); [|discriminate]. intros [= <-]. auto. Qed.

Lemma arm_layout_does x path ch s s' : place_of path = PLayout x -> arm_layout x ch s = Ok s' ->
  (forall k l, nget (lay s) k = Some l -> ly_account l = [] /\ ly_user l = []) ->
  forall k, nget (lay s') k =
    if layout_here k (path, ch) && enters (path, ch) then Some (mkLayout [] 0 [] []) else option_map (layout_upd k (path, ch)) (nget (lay s) k).
Proof.
  intros P D PL k. unfold arm_layout in D. cbv zeta in D. rewrite type_eqb_push in D. fold (enters (path, ch)) in D.
  assert (LH : layout_here k (path, ch) = (x =? k)). { unfold layout_here, at_place. cbn [fst]. now rewrite P. }
  assert (LU : (x =? k) = false -> option_map (layout_upd k (path, ch)) (nget (lay s) k) = nget (lay s) k).
  { intros E. destruct (nget (lay s) k) as [l|] eqn:G; [|reflexivity]. destruct (PL _ _ G) as [A U]. cbn [option_map]. unfold layout_upd. rewrite LH, E.
    cbn [andb]. destruct l; cbn in *; subst; reflexivity. }
  rewrite LH. change (match ctype ch with PathPush => true | _ => false end) with (enters (path, ch)) in D.
  revert D. destruct (enters (path, ch)); intros D.
  - rewrite andb_true_r. injection D as <-. unfold lay. cbn [d_file with_file f_layouts set_layouts]. rewrite nget_nset. fold (lay s).
    destruct (x =? k) eqn:E; [reflexivity|]. now rewrite LU.
  - rewrite andb_false_r. destruct (key_cases (cref ch) 2) as [K2|K2]; [|destruct (key_cases (cref ch) 16) as [K16|K16]].
    + rewrite K2 in D. change (f_layouts (d_file s)) with (lay s) in D. destruct (nget (lay s) x) as [l|] eqn:G.
      * unfold at_ in D. destruct (cdata ch) as [d|] eqn:CD; [|discriminate]. cbn [unwrap bind] in D.
        destruct (nthN d 1) as [b|] eqn:ND; [|discriminate]. cbn [unwrap bind] in D. unfold subU in D.
        destruct (128 <=? b); [|discriminate]. cbn [bind] in D. injection D as <-.
        unfold lay at 1. cbn [d_file with_file f_layouts set_layouts]. rewrite nget_nset. fold (lay s).
        destruct (x =? k) eqn:E; [|now rewrite LU]. apply N.eqb_eq in E. subst k. rewrite G. cbn [option_map]. unfold layout_upd.
        rewrite LH, ?N.eqb_refl, !(has_key_is 2) by exact K2. unfold byte_of. cbn [snd]. rewrite CD, ND. destruct (PL _ _ G) as [-> ->]. reflexivity.
      * injection D as <-. destruct (x =? k) eqn:E; [|now rewrite LU]. apply N.eqb_eq in E. subst k. now rewrite G.
    + rewrite K16 in D. change (f_layouts (d_file s)) with (lay s) in D. destruct (nget (lay s) x) as [l|] eqn:G.
      * destruct (cdata ch) as [d|] eqn:CD; [|discriminate]. cbn [unwrap bind] in D. injection D as <-.
        unfold lay at 1. cbn [d_file with_file f_layouts set_layouts]. rewrite nget_nset. fold (lay s).
        destruct (x =? k) eqn:E; [|now rewrite LU]. apply N.eqb_eq in E. subst k. rewrite G. cbn [option_map]. unfold layout_upd.
        rewrite LH, ?N.eqb_refl, !(has_key_is 16) by exact K16. unfold text_of. cbn [snd]. rewrite CD. destruct (PL _ _ G) as [-> ->]. reflexivity.
      * injection D as <-. destruct (x =? k) eqn:E; [|now rewrite LU]. apply N.eqb_eq in E. subst k. now rewrite G.
    + assert (E : s' = s).
      { repeat match type of D with match ?x with _ => _ end = _ => destruct x end; try congruence; try (exfalso; apply K2; reflexivity); exfalso; apply K16; reflexivity. }
      subst s'. destruct (nget (lay s) k) as [l|] eqn:G; [|reflexivity]. cbn [option_map]. unfold layout_upd.
      rewrite !has_key_other by assumption. rewrite !andb_false_r. destruct (PL _ _ G) as [A U]. destruct l; cbn in *; subst; reflexivity.
Qed.

Lemma layout_step h s path ch s' : dispatch path ch s = Ok s' -> (forall k, nget (lay s) k = layout_of k h) ->
  forall k, nget (lay s') k = layout_of k (h ++ [(path, ch)]).
Proof.
  intros D I k. apply frame_lay in D. rewrite layout_of_snoc, <- I.
  assert (PL : forall k l, nget (lay s) k = Some l -> ly_account l = [] /\ ly_user l = []) by (intros k0 l G; rewrite I in G; eapply layout_of_plain; eauto).
  destruct (place_of path) eqn:P; try (rewrite D; assert (F : layout_here k (path, ch) = false) by (unfold layout_here, at_place; cbn [fst]; now rewrite P);
    rewrite F; cbn [andb]; destruct (nget (lay s) k) as [l|] eqn:G; [|reflexivity]; cbn [option_map]; unfold layout_upd; rewrite F; cbn [andb];
    destruct (PL _ _ G) as [A U]; destruct l; cbn in *; subst; reflexivity).
  now apply (arm_layout_does k0).
Qed.

(** ** Scripts *)
Definition names_kept (s : dstate) (x : outcome dstate) : Prop :=
  forall s', x = Ok s' -> forall k, option_map sc_name (nget (nam s') k) = option_map sc_name (nget (nam s) k).

Lemma nk_same s x : keeps nam s x -> names_kept s x.
Proof. intros K s' E k. now rewrite (K _ E). Qed.
Lemma nk_mod s sid g : names_kept s (mod_steps s sid g).
Proof.
  intros s' E k. unfold mod_steps in E. destruct (nget (f_scripts (d_file s)) sid) as [sc|] eqn:G; [|discriminate]. cbn [unwrap bind] in E.
  destruct (g (sc_steps sc)) as [st| |]; try discriminate. cbn [bind] in E. injection E as <-.
  unfold nam. cbn [d_file with_file f_scripts set_scripts]. rewrite nget_nset. destruct (N.eqb_spec sid k) as [<-|]; [|reflexivity]. now rewrite G.
Qed.
Lemma nk_steps l : forall m sid ins s, names_kept s (steps_loop l m sid ins s).
Proof.
  induction l as [|b l IH]; intros m sid ins s; cbn [steps_loop]; [apply nk_same, keeps_ok|].
  destruct (_ <=? _); [|apply IH]. intros s' H k. destruct (decode_step _ b) as [o| |]; try discriminate. cbn [bind] in H.
  destruct o as [st|]; [|now apply (IH m sid ins s)].
  destruct (mod_steps s sid _) as [s1| |] eqn:M; try discriminate. cbn [bind] in H.
  rewrite (IH m sid ins s1 s' H k). now apply nk_mod with (1 := M).
Qed.
Lemma nk_build l : forall s, names_kept s (build_scripts l s).
Proof.
  induction l as [|[sid segs] l IH]; intros s s' H k; cbn [build_scripts] in H; [now injection H as <-|].
  destruct (build_script sid segs s) as [s1| |] eqn:B; try discriminate. cbn [bind] in H. rewrite (IH s1 s' H k).
  now apply nk_steps with (1 := B).
Qed.

Lemma frame_nam path ch s s' : dispatch path ch s = Ok s' ->
  match place_of path with PScript x => arm_script_name x ch s = Ok s' | _ => forall k, option_map sc_name (nget (nam s') k) = option_map sc_name (nget (nam s) k) end.
Proof.
  intros D.
  destruct (place_of path) eqn:P; [..|]; try (rewrite <- dispatch_place, P in D; cbn [at_arm] in D; auto;
    revert D; match goal with |- ?x = Ok _ -> _ => assert (K : names_kept s x); [|exact (K s')] end; apply nk_same;
    unfold arm_relation, arm_occurrence, arm_relation_fields, arm_layout, arm_field, arm_table, arm_source_name, arm_source; cbv zeta; kp; fail).
  - assert (SG : forall x, names_kept s (arm_segment x ch s)) by (intros; apply nk_same; unfold arm_segment; kp).
    assert (KM : forall sid g, names_kept s (mod_steps s sid g)) by (intros; apply nk_mod).
    assert (OK : names_kept s (Ok s)) by apply nk_same, keeps_ok.
    assert (BD : forall A (x : outcome A) k, (forall a, names_kept s (k a)) -> names_kept s (bind x k)).
    { intros A x k H s1 E. destruct x; cbn [bind] in E; try discriminate. now apply (H a). }
    assert (A8 : forall x y, names_kept s (arm_step_value x y ch s)).
    { intros. unfold arm_step_value. cbv zeta. repeat (match goal with |- names_kept _ (match ?x with _ => _ end) => destruct x end; auto). }
    assert (A9 : forall x y, names_kept s (arm_step_name x y ch s)).
    { intros. unfold arm_step_name. cbv zeta. repeat (match goal with |- names_kept _ (match ?x with _ => _ end) => destruct x end; auto). }
    assert (A10 : forall x y, names_kept s (arm_step_calc x y ch s)).
    { intros. unfold arm_step_calc. intros s1 H.
      match type of H with bind ?X _ = _ => assert (K : names_kept s X) end.
      { repeat (match goal with |- names_kept _ (match ?x with _ => _ end) => destruct x end; auto). }
      match type of H with bind ?X _ = _ => destruct X as [s2| |]; try discriminate end.
      cbn [bind] in H. destruct (nget _ x); try discriminate. injection H as <-. now apply K. }
    assert (A11 : forall x, names_kept s (arm_script x ch s)).
    { intros. unfold arm_script. pose proof nk_steps as NS. destruct (ctype ch); auto.
      all: match goal with |- names_kept _ (if ?c then _ else _) => destruct c end; [apply BD; intros; apply NS|].
      all: repeat (match goal with |- names_kept _ (match ?x with _ => _ end) => destruct x end; auto). }
    assert (Q : names_kept s (dispatch path ch s)); [|exact (Q s' D)].
    clear D. revert P. unfold dispatch, place_of.
    repeat match goal with |- context [match ?x with _ => _ end] => is_var x; destruct x end; try discriminate; intros _; auto.
Qed.

Lemma script_name_snoc k h e : script_name_of k (h ++ [e]) = if names_script k e then Some (text_of e) else script_name_of k h.
Proof.
  unfold script_name_of. rewrite existsb_snoc, last_of_snoc. unfold when. destruct (names_script k e); [now rewrite orb_true_r|now rewrite orb_false_r].
Qed.

Lemma script_step h s path ch s' : dispatch path ch s = Ok s' -> (forall k, option_map sc_name (nget (nam s) k) = script_name_of k h) ->
  forall k, option_map sc_name (nget (nam s') k) = script_name_of k (h ++ [(path, ch)]).
Proof.
  intros D I k. apply frame_nam in D. rewrite script_name_snoc, <- I.
  destruct (place_of path) as [| | | | | |x| | |] eqn:P; try (assert (F : names_script k (path, ch) = false) by (unfold names_script, at_place; cbn [fst]; now rewrite P); now rewrite F).
  assert (LH : names_script k (path, ch) = (x =? k) && keyed (path, ch) && has_key 16 (path, ch)) by (unfold names_script, at_place; cbn [fst]; now rewrite P).
  rewrite LH. unfold keyed. cbn [snd]. unfold arm_script_name in D.
  destruct (ctype ch) eqn:CT; try (injection D as <-; now rewrite andb_false_r).
  destruct (key_cases (cref ch) 16) as [K|K].
  - rewrite K in D. rewrite (has_key_is 16) by exact K. cbv zeta in D. rewrite !andb_true_r.
    assert (G : exists st, nam s' = nset (nam s) x (mkScript (text_of (path, ch)) (match nget (nam s) x with Some sc => sc_account sc | None => [] end)
       (match nget (nam s) x with Some sc => sc_user sc | None => [] end) (match nget (nam s) x with Some sc => sc_args sc | None => [] end) st)).
    { unfold nam in *. unfold text_of. cbn [snd]. destruct (nget (f_scripts (d_file s)) x) as [sc|].
      - injection D as <-. exists (sc_steps sc). reflexivity.
      - destruct (cdata ch) as [d|]; [|discriminate]. cbn [unwrap bind] in D. injection D as <-. exists []. reflexivity. }
    destruct G as (st & ->). rewrite nget_nset. destruct (x =? k); reflexivity.
  - rewrite has_key_other by exact K. rewrite andb_false_r. assert (E : s' = s); [|now subst].
    repeat match type of D with match ?x with _ => _ end = _ => destruct x end; try congruence; exfalso; apply K; reflexivity.
Qed.

(** ** Numbered components *)
Fixpoint numbered {A} (i : N) (l : list A) : list (N * A) := match l with [] => [] | x :: q => (i, x) :: numbered (i + 1) q end.

Lemma numbered_get {A} (l : list A) : forall i k, nget (numbered i l) k = if k <? i then None else nth_error l (N.to_nat (k - i)).
Proof.
  induction l as [|x l IH]; intros i k; cbn [numbered].
  - destruct (k <? i); [reflexivity|]. now destruct (N.to_nat (k - i)).
  - change (nget ((i, x) :: numbered (i + 1) l) k) with (if i =? k then Some x else nget (numbered (i + 1) l) k). rewrite IH.
    destruct (N.eqb_spec i k) as [<-|Hn].
    + rewrite N.ltb_irrefl, N.sub_diag. reflexivity.
    + destruct (N.ltb_spec k i), (N.ltb_spec k (i + 1)); try lia; [reflexivity|].
      replace (N.to_nat (k - i)) with (S (N.to_nat (k - (i + 1)))) by lia. reflexivity.
Qed.

Lemma numbered_len {A} (l : list A) : forall i, lenN (numbered i l) = lenN l.
Proof. unfold lenN. induction l as [|x l IH]; intros i; cbn [numbered length]; [reflexivity|]. specialize (IH (i + 1)). lia. Qed.

Lemma numbered_add {A} (l : list A) v : forall i, nset (numbered i l) (i + lenN l) v = numbered i (l ++ [v]).
Proof.
  unfold lenN. induction l as [|x l IH]; intros i; cbn [numbered app length].
  - replace (i + N.of_nat 0) with i by lia. reflexivity.
  - unfold nset. cbn [mset]. destruct (N.eqb_spec i (i + N.of_nat (S (length l)))); [lia|]. f_equal.
    replace (i + N.of_nat (S (length l))) with (i + 1 + N.of_nat (length l)) by lia. apply IH.
Qed.

Lemma numbered_last {A} (l : list A) x v : forall i, nset (numbered i (l ++ [x])) (i + lenN l) v = numbered i (l ++ [v]).
Proof.
  unfold lenN. induction l as [|y l IH]; intros i; cbn [numbered app length].
  - replace (i + N.of_nat 0) with i by lia. unfold nset. cbn [mset]. now rewrite N.eqb_refl.
  - unfold nset. cbn [mset]. destruct (N.eqb_spec i (i + N.of_nat (S (length l)))); [lia|]. f_equal.
    replace (i + N.of_nat (S (length l))) with (i + 1 + N.of_nat (length l)) by lia. apply IH.
Qed.

(** ** Occurrences *)
Fixpoint extend_last (l : list (entry * history)) (e : entry) : list (entry * history) :=
  match l with [] => [] | [x] => [(fst x, snd x ++ [e])] | x :: q => x :: extend_last q e end.

Lemma until_snoc_in p r e : p e = true -> until p (r ++ [e]) = until p r.
Proof. intros H. induction r as [|a r IH]; cbn [app until]; [now rewrite H|]. destruct (p a); [reflexivity|now rewrite IH]. Qed.
Lemma until_snoc_out p r e : p e = false -> until p (r ++ [e]) = if existsb p r then until p r else until p r ++ [e].
Proof.
  intros H. induction r as [|a r IH]; cbn [app until existsb]; [now rewrite H|]. destruct (p a); cbn [orb]; [reflexivity|].
  rewrite IH. destruct (existsb p r); reflexivity.
Qed.
Lemma sections_nil p r : existsb p r = false -> sections p r = [].
Proof. induction r as [|a r IH]; [reflexivity|]. cbn [existsb sections]. destruct (p a); [discriminate|exact IH]. Qed.
Lemma sections_some p r : existsb p r = true -> sections p r <> [].
Proof. induction r as [|a r IH]; [discriminate|]. cbn [existsb sections]. destruct (p a); [discriminate|exact IH]. Qed.

Lemma sections_in p h e : p e = true -> sections p (h ++ [e]) = sections p h ++ [(e, [])].
Proof.
  intros H. induction h as [|a h IH]; cbn [app sections]; [now rewrite H|]. destruct (p a); [|exact IH].
  rewrite IH, until_snoc_in by exact H. reflexivity.
Qed.
Lemma sections_out p h e : p e = false -> sections p (h ++ [e]) = extend_last (sections p h) e.
Proof.
  intros H. induction h as [|a h IH]; cbn [app sections]; [now rewrite H|]. destruct (p a); [|exact IH].
  rewrite IH, until_snoc_out by exact H. destruct (existsb p h) eqn:E.
  - apply sections_some in E. destruct (sections p h) as [|x q] eqn:S; [contradiction|]. reflexivity.
  - apply sections_nil in E. rewrite E. reflexivity.
Qed.
Lemma extend_last_snoc l x e : extend_last (l ++ [x]) e = l ++ [(fst x, snd x ++ [e])].
Proof. induction l as [|a l IH]; [reflexivity|]. cbn [app extend_last]. rewrite IH. destruct (l ++ [x]) eqn:E; [|reflexivity]. now destruct l. Qed.
Lemma sections_count p h : lenN (sections p h) = lenN (filter p h).
Proof. unfold lenN. induction h as [|a h IH]; [reflexivity|]. cbn [sections filter]. destruct (p a); cbn [length]; lia. Qed.

Definition occs (h : history) : list occurrence := map occurrence_read (sections starts_occurrence h).

Lemma extend_quiet l e : occurrence_here e && has_key 16 e = false -> map occurrence_read (extend_last l e) = map occurrence_read l.
Proof.
  intros H. induction l as [|x l IH]; [reflexivity|]. cbn [extend_last]. destruct l as [|y l].
  - cbn [map]. f_equal. unfold occurrence_read. cbn [fst snd]. rewrite last_of_snoc, H. reflexivity.
  - cbn [map] in *. now rewrite IH.
Qed.

Lemma occurrence_step h s path ch s' : dispatch path ch s = Ok s' -> occ s = numbered 1 (occs h) -> occ s' = numbered 1 (occs (h ++ [(path, ch)])).
Proof.
  intros D I. apply frame_occ in D.
  assert (Q : occurrence_here (path, ch) = false -> occs (h ++ [(path, ch)]) = occs h).
  { intros F. unfold occs. rewrite sections_out by (unfold starts_occurrence; now rewrite F). apply extend_quiet. now rewrite F. }
  destruct (place_of path) eqn:P; try (rewrite Q; [congruence|unfold occurrence_here, at_place; cbn [fst]; now rewrite P]). clear Q.
  assert (OH : occurrence_here (path, ch) = true) by (unfold occurrence_here, at_place; cbn [fst]; now rewrite P).
  assert (LO : lenN (f_occurrences (d_file s)) = lenN (occs h)) by (fold (occ s); rewrite I; apply numbered_len).
  unfold arm_occurrence in D. cbv zeta in D.
  destruct (key_cases (cref ch) 2) as [K|K]; [|destruct (key_cases (cref ch) 16) as [K'|K']].
  - rewrite K in D. destruct (cdata ch) as [d|] eqn:CD; [|discriminate]. cbn [unwrap bind] in D. unfold at_ in D.
    destruct (nthN d 6) as [b|] eqn:B; [|discriminate]. cbn [unwrap bind] in D. destruct (nthN d 2); [|discriminate]. cbn [unwrap bind] in D. injection D as <-.
    unfold occ. cbn [d_file with_file f_occurrences set_occurrences]. rewrite LO. change (f_occurrences (d_file s)) with (occ s). rewrite I.
    unfold occs at 3. rewrite sections_in by (unfold starts_occurrence; rewrite OH; now rewrite (has_key_is 2)). rewrite map_app. fold (occs h). cbn [map].
    rewrite N.add_comm, numbered_add. unfold occurrence_read. cbn [fst snd last_of]. unfold byte_of. cbn [snd]. now rewrite CD, B.
  - rewrite K' in D. unfold occs. rewrite sections_out by (unfold starts_occurrence; rewrite (has_key_is 16) by exact K'; now rewrite andb_false_r).
    change (f_occurrences (d_file s)) with (occ s) in D. rewrite I in D. 
    destruct (sections starts_occurrence h) as [|x0 q0] eqn:S.
    + unfold occs in D. rewrite S in D. discriminate.
    + destruct (@exists_last _ (x0 :: q0)) as (q & x & E); [discriminate|]. rewrite E in *. clear E x0 q0.
      assert (EO : occs h = map occurrence_read q ++ [occurrence_read x]) by (unfold occs; rewrite S; apply map_app).
      rewrite numbered_len, EO in D. rewrite extend_last_snoc, map_app. cbn [map].
      replace (lenN (map occurrence_read q ++ [occurrence_read x])) with (1 + lenN (map occurrence_read q)) in D by (unfold lenN; rewrite app_length; cbn [length]; lia).
      rewrite numbered_get in D.
      destruct (N.ltb_spec (1 + lenN (map occurrence_read q)) 1); [lia|].
      replace (N.to_nat (1 + lenN (map occurrence_read q) - 1)) with (length (map occurrence_read q)) in D by (unfold lenN; lia).
      rewrite nth_error_app2, Nat.sub_diag in D by auto. cbn [nth_error unwrap bind] in D. rewrite numbered_last in D. injection D as <-.
      unfold occ. cbn [d_file with_file f_occurrences set_occurrences]. f_equal. f_equal. f_equal.
      unfold occurrence_read. cbn [fst snd oc_table oc_table_name oc_account oc_user]. rewrite last_of_snoc, OH, (has_key_is 16) by exact K'. reflexivity.
  - assert (E : s' = s).
    { repeat match type of D with match ?x with _ => _ end = _ => destruct x end; try congruence; try (exfalso; apply K; reflexivity); exfalso; apply K'; reflexivity. }
    subst s'. rewrite I. f_equal. unfold occs. rewrite sections_out by (unfold starts_occurrence; rewrite has_key_other by exact K; now rewrite andb_false_r).
    symmetry. apply extend_quiet. rewrite has_key_other by exact K'. apply andb_false_r.
Qed.
