(** Consequences of the opcode table. *)
From Coq Require Import NArith ZArith List Bool Lia.
From Verif Require Import Prelude PreludeFacts EncodingModel EncodingProofs ChunkModel ChunkSpec ChunkFacts ChunkProofs.
Import ListNotations.
Local Open Scope N_scope.

(** * Appending input *)

Lemma take_app_lenN (a b : list N) : take (lenN a) (a ++ b) = Some (a, b).
Proof.
  unfold take. rewrite lenN_app. replace (lenN a <=? lenN a + lenN b) with true by lia.
  unfold lenN. rewrite Nat2N.id, firstn_app, skipn_app, Nat.sub_diag, firstn_all, skipn_all. cbn. now rewrite app_nil_r.
Qed.

Lemma take_ext n l d r e : take n l = Some (d, r) -> take n (l ++ e) = Some (d, r ++ e).
Proof.
  intros H. apply take_len in H as [<- ->]. rewrite <- app_assoc. apply take_app_lenN.
Qed.

Lemma field_ext w l d n r e : field w l = Some (d, n, r) -> field w (l ++ e) = Some (d, n, r ++ e).
Proof.
  destruct w; cbn [field].
  - destruct (take n0 l) as [[d0 r0]|] eqn:T; [|discriminate]. intros [= <- <- <-]. now rewrite (take_ext _ _ _ _ e T).
  - destruct l as [|x l]; [discriminate|]. cbn [app].
    destruct (take x l) as [[d0 r0]|] eqn:T; [|discriminate]. intros [= <- <- <-]. now rewrite (take_ext _ _ _ _ e T).
  - destruct l as [|x [|y l]]; try discriminate. cbn [app].
    destruct (take _ l) as [[d0 r0]|] eqn:T; [|discriminate]. intros [= <- <- <-]. now rewrite (take_ext _ _ _ _ e T).
  - destruct l as [|x [|y l]]; try discriminate. cbn [app].
    destruct (take _ l) as [[d0 r0]|] eqn:T; [|discriminate]. intros [= <- <- <-]. now rewrite (take_ext _ _ _ _ e T).
Qed.

Lemma some3 {A B C} (a a' : A) (b b' : B) (c c' : C) :
  Some (a, b, c) = Some (a', b', c') -> a = a' /\ b = b' /\ c = c'.
Proof. intros H. injection H. auto. Qed.

Lemma field_len w l d n r : field w l = Some (d, n, r) ->
  exists x, l = x ++ d ++ r /\ lenN x + lenN d = n.
Proof.
  destruct w; cbn [field].
  - destruct (take n0 l) as [[d0 r0]|] eqn:T; [|discriminate]. intros H; apply some3 in H as (<- & <- & <-).
    apply take_len in T as [<- ->]. exists []. now cbn.
  - destruct l as [|x l]; [discriminate|].
    destruct (take x l) as [[d0 r0]|] eqn:T; [|discriminate]. intros H; apply some3 in H as (<- & <- & <-).
    apply take_len in T as [<- ->]. exists [lenN d0]. split; auto.
  - destruct l as [|x [|y l]]; try discriminate.
    destruct (take _ l) as [[d0 r0]|] eqn:T; [|discriminate]. intros H; apply some3 in H as (<- & <- & <-).
    apply take_len in T as [H ->]. exists [x; y]. split; auto.
    change (lenN [x; y]) with 2. lia.
  - destruct l as [|x [|y l]]; try discriminate.
    destruct (take _ l) as [[d0 r0]|] eqn:T; [|discriminate]. intros H; apply some3 in H as (<- & <- & <-).
    apply take_len in T as [H ->]. exists [x; y]. split; auto.
    change (lenN [x; y]) with 2. lia.
Qed.

Ltac fields :=
  repeat match goal with
         | H : context [match field ?w ?l with _ => _ end] |- _ =>
           let T := fresh "T" in destruct (field w l) as [[[? ?] ?]|] eqn:T; try discriminate
         | H : context [match take ?n ?l with _ => _ end] |- _ =>
           let T := fresh "T" in destruct (take n l) as [[? ?]|] eqn:T; try discriminate
         | H : context [match ?l with [] => _ | _ :: _ => _ end] |- _ =>
           is_var l; destruct l as [|? ?]; try discriminate
         end.

Lemma read_layout_ext y u l r e :
  read_layout y u l = Some r -> read_layout y u (l ++ e) = Some r.
Proof.
  destruct y; cbn [read_layout]; intros H; fields;
    try (destruct l as [|? l]; [discriminate|]; cbn [tl] in * ); cbn [app tl];
    repeat match goal with
           | T : take _ _ = Some _ |- _ =>
             let E := fresh in pose proof (take_ext _ _ _ _ e T) as E; cbn [app] in E; rewrite E; clear T E
           | T : field _ _ = Some _ |- _ =>
             let E := fresh in pose proof (field_ext _ _ _ _ _ e T) as E; cbn [app] in E; rewrite E; clear T E
           end; try exact H.
Qed.

Lemma layout_next c n m : peeks c = false -> layout_of c n = layout_of c m.
Proof.
  unfold peeks. intros H. rewrite !orb_false_iff, !N.eqb_neq in H. destruct H as [[[H1 H2] H3] H4].
  unfold layout_of.
  destruct c as [|p]; [reflexivity|].
  repeat match goal with
         | |- context [match ?p with xI _ => _ | xO _ => _ | xH => _ end] => destruct p as [p|p|]; try reflexivity
         end; congruence.
Qed.

Lemma spec_read_ext l e c r late :
  spec_read l = SRead c r late -> spec_read (l ++ e) = SRead c r late.
Proof.
  destruct l as [|b l]; [discriminate|]. cbn [spec_read app].
  destruct (split_opcode b) as [c0 late0].
  destruct (read_body c0 l) as [r0| |] eqn:E; try discriminate.
  intros [= -> -> ->].
  replace (read_body c (l ++ e)) with (BRead r); auto. symmetry.
  destruct l as [|next l]; cbn [read_body app] in *.
  - destruct (peeks c) eqn:P; [discriminate|].
    destruct (layout_of c 0) as [y|] eqn:Y; [|discriminate].
    destruct (read_layout y 1 []) as [r1|] eqn:R; [|discriminate]. injection E as <-.
    destruct e as [|x e].
    + cbn [read_body]. now rewrite P, Y, R.
    + cbn [read_body]. rewrite (layout_next c x 0 P), Y.
      assert (L : lead_of c x = 0).
      { unfold lead_of. unfold peeks in P. rewrite !orb_false_iff in P. destruct P as [[_ P] _]. now rewrite P. }
      rewrite L. change (N.to_nat 0) with 0%nat. cbn [skipn]. change (1 + 0) with 1.
      change (x :: e) with ([] ++ (x :: e)).
      now rewrite (read_layout_ext y 1 [] r1 (x :: e)) by auto.
  - destruct (layout_of c next) as [y|]; [|discriminate].
    destruct (read_layout y _ _) as [r1|] eqn:R; [|discriminate]. injection E as <-.
    assert (S : skipn (N.to_nat (lead_of c next)) (next :: l ++ e) = skipn (N.to_nat (lead_of c next)) (next :: l) ++ e).
    { unfold lead_of. destruct ((c =? 27) && (next =? 0)); reflexivity. }
    rewrite S, (read_layout_ext _ _ _ r1 e) by auto. reflexivity.
Qed.

(** * Where things are *)

(** [d] sits inside [l], at least [lo] from its start, ending no later than [hi]. *)
Definition within (l : list N) (lo : N) (d : list N) (hi : N) : Prop :=
  exists x z, l = x ++ d ++ z /\ lo <= lenN x /\ lenN x + lenN d <= hi.

Definition fits (l : list N) (lo : N) (d : option (list N)) (hi : N) : Prop :=
  match d with Some d => within l lo d hi | None => True end.

Lemma within_len l lo d hi : within l lo d hi -> within l lo d (lenN l).
Proof. intros (x & z & -> & H1 & H2). exists x, z. repeat split; auto. rewrite !lenN_app. lia. Qed.

Lemma within_cons a l lo d hi : within l lo d hi -> within (a :: l) (1 + lo) d (1 + hi).
Proof. intros (x & z & -> & H1 & H2). exists (a :: x), z. rewrite !lenN_cons. repeat split; auto; lia. Qed.

Lemma within_app p l lo d hi : within l lo d hi -> within (p ++ l) (lenN p + lo) d (lenN p + hi).
Proof.
  intros (x & z & -> & H1 & H2). exists (p ++ x), z. rewrite <- app_assoc, !lenN_app. repeat split; auto; lia.
Qed.

Lemma within_weak l lo lo' d hi hi' : within l lo d hi -> lo' <= lo -> hi <= hi' -> within l lo' d hi'.
Proof. intros (x & z & -> & H1 & H2) A B. exists x, z. repeat split; auto; lia. Qed.

Definition slack_of (y : layout) : N :=
  match y with LData _ s => s | LZero => 1 | _ => 0 end.

Definition counted (y : layout) : bool := match y with LPushCounted => true | _ => false end.
Definition overlap (y : layout) : bool := match y with LLongOverlap => true | _ => false end.
Definition stuck (y : layout) : bool := match y with LStuck => true | _ => false end.

Ltac flen :=
  repeat match goal with
         | H : field _ _ = Some _ |- _ => apply field_len in H as (? & ? & ?)
         | H : take _ _ = Some _ |- _ => apply take_len in H as [? ?]
         end; subst.

Ltac lens := cbn [app]; rewrite ?lenN_app, ?lenN_cons, ?lenN_app, ?lenN_cons, ?lenN_nil in *; try lia.

Lemma within_intro l x d z : l = x ++ d ++ z -> within l 0 d (lenN x + lenN d).
Proof. intros ->. exists x, z. repeat split; lia. Qed.

(** Solve the five parts: numbers, then the two locations. *)
Ltac parts t1 t2 :=
  split; [intros; try discriminate; lens|split; [intros; try discriminate; auto|split;
    [intros; try discriminate; lens|split; [t1|t2]]]].
Ltac here x z := eexists; split; [apply (within_intro _ x _ z); cbn [app]; rewrite <- ?app_assoc; cbn [app];
                                    try reflexivity|intros; try discriminate; lens].
Ltac none := exists 0; split; [auto|intros; try discriminate; lia].

(** Everything about one layout at once. *)
Lemma read_layout_facts y u l r : read_layout y u l = Some r ->
  (stuck y = false -> u <= rused r) /\
  (stuck y = true -> rused r = 0 /\ rdata r = None /\ rref r = None) /\
  (counted y = false -> stuck y = false -> rused r <= u + lenN l + slack_of y) /\
  (exists hi, fits l 0 (rdata r) hi /\ (counted y = false -> stuck y = false -> u + hi <= rused r)) /\
  (exists hi, fits l 0 (rref r) hi /\ (overlap y = false -> stuck y = false -> u + hi <= rused r)).
Proof.
  destruct y; cbn [read_layout]; intros H; fields; injection H as <-;
    cbn [rused rdata rref fits stuck counted overlap slack_of]; flen.
  - parts ltac:(here (n :: x) l1) none.
  - parts ltac:(here (n :: n0 :: x) l1) none.
  - parts ltac:(here x l1) none.
  - parts ltac:(here (l0 ++ n :: x) l3) none.
  - parts ltac:(here (x0 ++ l0 ++ x) l3) ltac:(here x0 (x ++ l2 ++ l3)).
  - parts ltac:(here (lenN l2 :: x) l1) ltac:(here [lenN l2] l3). now rewrite H2.
  - parts ltac:(here (@nil N) l) none.
  - destruct l as [|x l]; cbn [tl] in *; [destruct l0; discriminate|]. subst l.
    parts ltac:(here [x] l1) none.
  - parts ltac:(here (@nil N) l) none.
  - parts ltac:(here (@nil N) l1) none.
  - parts ltac:(here [n] l) none.
  - parts none none.
  - parts none none.
  - parts ltac:(here (@nil N) l) none. change (lenN (@nil N)) with 0. lia.
  - parts none none.
Qed.

Lemma spec_read_inv suf c r late : spec_read suf = SRead c r late ->
  exists b l y next, suf = b :: l /\ split_opcode b = (c, late) /\ layout_of c next = Some y /\
    (l = [] -> peeks c = false /\ next = 0) /\ (forall x l', l = x :: l' -> next = x) /\
    read_layout y (1 + lead_of c next) (skipn (N.to_nat (lead_of c next)) l) = Some r.
Proof.
  destruct suf as [|b l]; [discriminate|]. cbn [spec_read].
  destruct (split_opcode b) as [c0 late0] eqn:S.
  destruct (read_body c0 l) as [r0| |] eqn:E; try discriminate. intros [= -> -> ->].
  destruct l as [|next l]; cbn [read_body] in E.
  - destruct (peeks c) eqn:P; [discriminate|].
    destruct (layout_of c 0) as [y|] eqn:Y; [|discriminate].
    destruct (read_layout y 1 []) as [r1|] eqn:R; [|discriminate]. injection E as <-.
    exists b, [], y, 0. repeat split; auto; try discriminate.
    unfold lead_of, peeks in *. rewrite !orb_false_iff in P. destruct P as [[_ ->] _]. exact R.
  - destruct (layout_of c next) as [y|] eqn:Y; [|discriminate].
    destruct (read_layout y _ _) as [r1|] eqn:R; [|discriminate]. injection E as <-.
    exists b, (next :: l), y, next. repeat split; auto; try discriminate. congruence.
Qed.

Lemma stuck_iff c next y : layout_of c next = Some y -> (stuck y = true <-> c = 0x0F /\ next <> 0x80).
Proof.
  unfold layout_of.
  destruct c as [|p]; [intros [= <-]; split; [discriminate|intros [? _]; discriminate]|].
  repeat match goal with
         | |- context [match ?p with xI _ => _ | xO _ => _ | xH => _ end] => destruct p as [p|p|]; try discriminate
         end;
    try (intros [= <-]; cbn [stuck]; split; [discriminate|intros [? _]; discriminate]);
    destruct (N.eqb_spec next 0xFF), (N.eqb_spec next 0x80), (N.eqb_spec next 0), (N.eqb_spec next 0xFE);
    intros [= <-]; cbn [stuck]; split; try discriminate; try (intros [? ?]; congruence); auto.
Qed.

Lemma counted_iff c next y : layout_of c next = Some y -> counted y = true -> c = 0x38.
Proof.
  unfold layout_of.
  destruct c as [|p]; [intros [= <-]; discriminate|].
  repeat match goal with
         | |- context [match ?p with xI _ => _ | xO _ => _ | xH => _ end] => destruct p as [p|p|]; try discriminate
         end;
    try (intros [= <-]; cbn [counted]; (discriminate || reflexivity));
    destruct (next =? _); intros [= <-]; discriminate.
Qed.

Lemma overlap_iff c next y : layout_of c next = Some y -> overlap y = true -> c = 0x1F.
Proof.
  unfold layout_of.
  destruct c as [|p]; [intros [= <-]; discriminate|].
  repeat match goal with
         | |- context [match ?p with xI _ => _ | xO _ => _ | xH => _ end] => destruct p as [p|p|]; try discriminate
         end;
    try (intros [= <-]; cbn [overlap]; (discriminate || reflexivity));
    destruct (next =? _); intros [= <-]; discriminate.
Qed.

Definition slack (c : N) : N :=
  match c with 0x00 => 1 | 0x19 => 1 | 0x1A => 2 | 0x1B => 4 | 0x1C => 6 | 0x1D => 8 | _ => 0 end.

Lemma slack_le c next y : layout_of c next = Some y -> slack_of y <= slack c.
Proof.
  unfold layout_of, slack.
  destruct c as [|p]; [intros [= <-]; cbn; lia|].
  repeat match goal with
         | |- context [match ?p with xI _ => _ | xO _ => _ | xH => _ end] => destruct p as [p|p|]; try discriminate
         end;
    try (intros [= <-]; cbn [slack_of]; lia);
    destruct (next =? _); intros [= <-]; cbn [slack_of]; lia.
Qed.

Lemma spec_read_facts suf c r late : spec_read suf = SRead c r late ->
  (rused r = 0 <-> (c = 0x0F /\ exists b x l, suf = b :: x :: l /\ x <> 0x80)) /\
  (c <> 0x38 -> rused r <= lenN suf + slack c) /\
  (exists hi, fits suf 1 (rdata r) hi /\ (c <> 0x38 -> hi <= rused r)) /\
  (exists hi, fits suf 1 (rref r) hi /\ (c <> 0x1F -> hi <= rused r)).
Proof.
  intros H. apply spec_read_inv in H as (b & l & y & next & -> & S & Y & Hnil & Hcons & R).
  apply read_layout_facts in R as (Fu & Fs & Fl & (h1 & D1 & D2) & (h2 & R1 & R2)).
  assert (Lead : lead_of c next = 0 \/ (lead_of c next = 1 /\ exists l', l = next :: l')).
  { unfold lead_of. destruct ((c =? 0x1B) && (next =? 0)) eqn:E; [right|left; auto]. split; auto.
    destruct l as [|x l]; [|exists l; f_equal; symmetry; eapply Hcons; eauto].
    destruct (Hnil eq_refl) as [P _]. unfold peeks in P. rewrite !orb_false_iff in P.
    apply andb_true_iff in E as [E _]. destruct P as [[_ P] _]. congruence. }
  assert (Lift : forall d hi, fits (skipn (N.to_nat (lead_of c next)) l) 0 d hi ->
                         fits (b :: l) 1 d (1 + lead_of c next + hi)).
  { intros [d|] hi W; cbn [fits] in *; auto. destruct Lead as [E | [E [l' ->]]]; rewrite E in W |- *.
    - change (N.to_nat 0) with 0%nat in W. cbn [skipn] in W.
      eapply within_weak; [apply within_cons; exact W| |]; lia.
    - change (N.to_nat 1) with 1%nat in W. cbn [skipn] in W.
      replace (1 + 1 + hi) with (1 + (1 + hi)) by lia.
      eapply within_weak; [do 2 apply within_cons; exact W| |]; lia. }
  assert (Hstk : stuck y = true <-> c = 0x0F /\ next <> 0x80) by (eapply stuck_iff; eauto).
  assert (Hlen : lead_of c next + lenN (skipn (N.to_nat (lead_of c next)) l) = lenN l).
  { destruct Lead as [-> | [-> [l' ->]]]; cbn [skipn]; [reflexivity|].
    change (N.to_nat 1) with 1%nat. cbn [skipn]. rewrite lenN_cons. lia. }
  assert (Hsl := slack_le _ _ _ Y).
  split; [|split; [|split]].
  - split.
    + intros E. assert (stuck y = true) as Hs.
      { destruct (stuck y); auto. specialize (Fu eq_refl). lia. }
      apply Hstk in Hs as [-> Hn]. split; auto.
      destruct l as [|x l]; [destruct (Hnil eq_refl) as [P _]; discriminate|].
      exists b, x, l. split; auto. now rewrite <- (Hcons x l eq_refl).
    + intros [-> (b' & x & l' & [= -> ->] & Hx)]. apply Fs, Hstk. split; auto.
      now rewrite (Hcons x l' eq_refl).
  - intros Hc. assert (counted y = false) as Hcn.
    { destruct (counted y) eqn:E; auto. apply (counted_iff _ _ _ Y) in E. congruence. }
    rewrite lenN_cons. destruct (stuck y) eqn:Es; [rewrite (proj1 (Fs eq_refl)); lia|].
    specialize (Fl Hcn eq_refl). lia.
  - destruct (stuck y) eqn:Es.
    + destruct (Fs eq_refl) as (_ & -> & _). exists 0. cbn [fits]. split; [auto|lia].
    + exists (1 + lead_of c next + h1). split; [now apply Lift|]. intros Hc.
      apply D2; auto. destruct (counted y) eqn:E; auto. apply (counted_iff _ _ _ Y) in E. congruence.
  - destruct (stuck y) eqn:Es.
    + destruct (Fs eq_refl) as (_ & _ & ->). exists 0. cbn [fits]. split; [auto|lia].
    + exists (1 + lead_of c next + h2). split; [now apply Lift|]. intros Hc.
      apply R2; auto. destruct (overlap y) eqn:E; auto. apply (overlap_iff _ _ _ Y) in E. congruence.
Qed.
