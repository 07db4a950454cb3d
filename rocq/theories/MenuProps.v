(** C97. The menus of the screen. *)
From Coq Require Import ZArith Lia List Bool Arith.
From Verif Require Import CRes MenuModel MenuSpec.
Import ListNotations.

(** Widgets of the page in view. *)
Definition has (m : menu) (p : page) (i : nat) (h : handle) : Prop := buttons m p i = Some h /\ In h (alive m).
Definition wanted (k : kind) (i : nat) : Prop :=
  match k with MenuPage l => exists q, nth_error l i = Some (Some q) | Leaf n => i < n end.
Definition shown (pages : page -> kind) (m : menu) (p : page) : Prop :=
  (forall i, wanted (pages p) i -> exists h, has m p i h) /\
  forall i j h, wanted (pages p) i -> wanted (pages p) j -> buttons m p i = Some h -> buttons m p j = Some h -> i = j.
Fixpoint chain (m : menu) (st : list page) : Prop :=
  match st with [] => True | p :: st => history_previous m p = Some (hd_error st) /\ chain m st end.
Fixpoint linked (pages : page -> kind) (st : list page) : Prop :=
  match st with p :: (q :: _) as st' => (exists i, link pages q i = Some p) /\ linked pages st' | _ => True end.
Definition inv (pages : page -> kind) (m : menu) (st : list page) : Prop :=
  exists p r, st = p :: r /\ cur m = Some p /\ title m = Some p /\ back_enabled m = (match r with [] => false | _ => true end) /\
    chain m st /\ linked pages st /\ shown pages m p.

(** Creating widgets changes the handles of the page only. *)
Definition grows (p : page) (i : nat) (m m' : menu) : Prop :=
  cur m' = cur m /\ history_previous m' = history_previous m /\ back_enabled m' = back_enabled m /\
  fresh m <= fresh m' /\ (forall h, In h (alive m) -> In h (alive m')) /\
  (forall q j, q <> p \/ j < i -> buttons m' q j = buttons m q j).
Lemma grows_create p i m : grows p (S i) (create m p i) (create m p i).
Proof. unfold grows. intuition lia. Qed.
Lemma create_links_ok p l : forall m i, let m' := create_links m p i l in grows p i m m' /\
  (forall j q, nth_error l j = Some (Some q) -> exists h, has m' p (i + j) h /\ fresh m <= h < fresh m') /\
  (forall j k h, (exists q, nth_error l j = Some (Some q)) -> (exists q, nth_error l k = Some (Some q)) -> buttons m' p (i + j) = Some h -> buttons m' p (i + k) = Some h -> j = k).
Proof.
  induction l as [|[q|] l IH]; intros m i m'; cbn [create_links] in m'.
  - split; [unfold grows, m'; intuition lia|]. split; [intros [|j] q H; discriminate H|intros [|j] k h [q H]; discriminate H].
  - destruct (IH (create m p i) (S i)) as (G & W & D). fold m' in G, W, D. destruct G as (G1 & G2 & G3 & G4 & G5 & G6). cbn [create fresh alive cur history_previous back_enabled buttons] in *.
    assert (B : buttons m' p i = Some (fresh m)) by (rewrite G6 by (right; lia); rewrite !Nat.eqb_refl; reflexivity).
    split; [|split].
    + unfold grows. do 3 (split; [assumption|]). split; [lia|]. split; [intros h Ih; apply G5; right; exact Ih|]. intros r j Hj. rewrite G6 by lia. destruct (Nat.eqb_spec r p), (Nat.eqb_spec j i); cbn [andb]; auto; subst; lia.
    + intros [|j] r H; cbn [nth_error] in H.
      * rewrite Nat.add_0_r. exists (fresh m). split; [split; [exact B|apply G5; left; reflexivity]|lia].
      * destruct (W j r H) as (h & Hh & Hf). replace (i + S j) with (S i + j) by lia. exists h. split; [exact Hh|lia].
    + intros [|j] [|k] h [q1 H1] [q2 H2] E1 E2; cbn [nth_error] in *; [reflexivity| | |].
      * exfalso. rewrite Nat.add_0_r, B in E1. destruct (W k q2 H2) as (h' & [Hb _] & Hf). replace (i + S k) with (S i + k) in E2 by lia. assert (h' = h) by congruence. assert (fresh m = h) by congruence. lia.
      * exfalso. rewrite Nat.add_0_r, B in E2. destruct (W j q1 H1) as (h' & [Hb _] & Hf). replace (i + S j) with (S i + j) in E1 by lia. assert (h' = h) by congruence. assert (fresh m = h) by congruence. lia.
      * f_equal. apply (D j k h); eauto; replace (S i + j) with (i + S j) by lia; replace (S i + k) with (i + S k) by lia; assumption.
  - destruct (IH m (S i)) as (G & W & D). fold m' in G, W, D. split; [|split].
    + destruct G as (G1 & G2 & G3 & G4 & G5 & G6). unfold grows. do 5 (split; [assumption|]). intros r j Hj. apply G6. lia.
    + intros [|j] r H; cbn [nth_error] in H; [discriminate H|]. destruct (W j r H) as (h & Hh & Hf). replace (i + S j) with (S i + j) by lia. eauto.
    + intros [|j] [|k] h [q1 H1] [q2 H2] E1 E2; cbn [nth_error] in *; try discriminate. f_equal. apply (D j k h); eauto; replace (S i + j) with (i + S j) by lia; replace (S i + k) with (i + S k) by lia; assumption.
Qed.
Lemma widgets_links p n : forall m i, create_widgets m p i n = create_links m p i (repeat (Some 0) n).
Proof. induction n as [|n IH]; intros m i; [reflexivity|apply IH]. Qed.
Lemma nth_repeat_some n j : nth_error (repeat (Some 0) n) j = Some (Some 0) <-> j < n.
Proof.
  split; [intro H; pose proof (nth_lt _ _ _ H) as L; now rewrite repeat_length in L|]. intro H. revert j H. induction n as [|n IH]; intros [|j] H; cbn; try lia; [reflexivity|apply IH; lia].
Qed.
Lemma on_enter_ok pages m p : let m' := on_enter pages m p in grows p 0 m m' /\ shown pages m' p.
Proof.
  cbv zeta. unfold on_enter, shown. destruct (pages p) as [l|n] eqn:K; cbn [wanted].
  - destruct (create_links_ok p l m 0) as (G & W & D). split; [exact G|]. split.
    + intros i [q H]. destruct (W i q H) as (h & Hh & _). eauto.
    + intros i j h Hi Hj E1 E2. apply (D i j h); auto.
  - rewrite widgets_links. destruct (create_links_ok p (repeat (Some 0) n) m 0) as (G & W & D). split; [exact G|]. split.
    + intros i H. apply nth_repeat_some in H. destruct (W i 0 H) as (h & Hh & _). eauto.
    + intros i j h Hi Hj E1 E2. apply (D i j h); auto; exists 0; now apply nth_repeat_some.
Qed.
Lemma chain_eq m m' st : history_previous m' = history_previous m -> chain m st -> chain m' st.
Proof. intro E. induction st as [|p st IH]; cbn [chain]; [auto|]. rewrite E. intuition. Qed.
Lemma switch_ok pages m p r : chain m (p :: r) -> linked pages (p :: r) -> exists m', switch_to_page pages m (Some p) = OK m' /\ inv pages m' (p :: r) /\
  (forall q j, q <> p -> buttons m' q j = buttons m q j).
Proof.
  intros C L. unfold switch_to_page, switch_back_button, switch_contents, switch_page, delete_container, set_alive. cbn [cur history_previous buttons alive fresh back_enabled title].
  destruct C as [C1 C2]. rewrite C1. cbn [rbind].
  match goal with |- context [on_enter pages ?x p] => destruct (on_enter_ok pages x p) as ((G1 & G2 & G3 & G4 & G5 & G6) & Sh); set (m' := on_enter pages x p) in * end.
  cbn [cur history_previous buttons alive fresh back_enabled title] in *.
  eexists. split; [reflexivity|]. split; [|intros q j N; cbn [buttons]; apply G6; auto].
  exists p, r. cbn [cur title back_enabled]. split; [reflexivity|]. split; [exact G1|]. split; [reflexivity|]. split; [rewrite G3; destruct r; reflexivity|].
  split; [split; [cbn [history_previous]; rewrite G2; exact C1|apply (chain_eq m); [cbn [history_previous]; exact G2|exact C2]]|]. split; [exact L|].
  exact Sh.
Qed.
(** Pages of the stack are below the one on top. *)
Lemma linked_rank pages rank p r : (forall p i q, link pages p i = Some q -> rank p < rank q) -> linked pages (p :: r) -> forall q, In q r -> rank q < rank p.
Proof.
  intros R. revert p. induction r as [|q r IH]; intros p L x I; [destruct I|]. destruct L as [[i H] L]. apply R in H. destruct I as [<-|I]; [exact H|].
  specialize (IH q L x I). lia.
Qed.
Lemma chain_set m p x st : ~ In p st -> chain m st -> chain (set_previous_page m p x) st.
Proof.
  induction st as [|q st IH]; cbn [chain]; [auto|]. intros N [C1 C2]. split; [|apply IH; [intro; apply N; right; assumption|exact C2]].
  unfold set_previous_page. cbn [history_previous]. destruct (Nat.eqb_spec q p); [exfalso; apply N; left; auto|exact C1].
Qed.
Lemma enter_ok pages m p r q i : acyclic pages -> inv pages m (p :: r) -> link pages p i = Some q ->
  exists m', enter_page pages m q = OK m' /\ inv pages m' (q :: p :: r) /\ forall j, buttons m' p j = buttons m p j.
Proof.
  intros [rank R] (p' & r' & E & C & T & B & Ch & L & Sh) H. injection E as <- <-. unfold enter_page.
  assert (L' : linked pages (q :: p :: r)) by (split; [eauto|exact L]). pose proof (linked_rank pages rank q (p :: r) R L') as N.
  assert (Nq : ~ In q (p :: r)) by (intro I; apply N in I; lia).
  destruct (switch_ok pages (set_previous_page m q (cur m)) q (p :: r)) as (m' & S1 & S2 & S3).
  - split; [unfold set_previous_page; cbn [history_previous]; rewrite Nat.eqb_refl, C; reflexivity|]. apply chain_set; [exact Nq|exact Ch].
  - exact L'.
  - exists m'. split; [exact S1|]. split; [exact S2|]. intro j. apply S3. intros ->. apply Nq. left. reflexivity.
Qed.
Lemma button_none pages m p h l : forall i, (forall j q, nth_error l j = Some (Some q) -> exists b, buttons m p (i + j) = Some b /\ b <> h) -> on_button pages m p h i l = OK m.
Proof.
  induction l as [|[q|] l IH]; intros i H; cbn [on_button]; [reflexivity| |apply IH; intros j q Hj; destruct (H (S j) q Hj) as (b & Hb); exists b; replace (S i + j) with (i + S j) by lia; exact Hb].
  destruct (H 0 q eq_refl) as (b & Hb & Nb). rewrite Nat.add_0_r in Hb. rewrite Hb. destruct (Nat.eqb_spec h b); [congruence|]. apply IH.
  intros j q' Hj. destruct (H (S j) q' Hj) as (b' & Hb'). exists b'. replace (S i + j) with (i + S j) by lia. exact Hb'.
Qed.
Lemma button_ok pages m p r h q k l : acyclic pages -> inv pages m (p :: r) -> pages p = MenuPage l -> nth_error l k = Some (Some q) -> buttons m p k = Some h ->
  exists m', on_button pages m p h 0 l = OK m' /\ inv pages m' (q :: p :: r).
Proof.
  intros A I K N B. assert (Lk : link pages p k = Some q) by (unfold link; rewrite K, N; reflexivity).
  destruct (enter_ok pages m p r q k A I Lk) as (m1 & E1 & I1 & B1). exists m1. split; [|exact I1].
  destruct I as (p' & r' & E & _ & _ & _ & _ & _ & Sh). injection E as <- <-. destruct Sh as [W D]. rewrite K in W, D. cbn [wanted] in W, D.
  assert (O : forall j q', j <> k -> nth_error l j = Some (Some q') -> exists b, buttons m p j = Some b /\ b <> h).
  { intros j q' Nj Hj. destruct (W j (ex_intro _ q' Hj)) as (b & Hb & _). exists b. split; [exact Hb|]. intros ->. apply Nj. apply (D j k h); eauto. }
  assert (G : forall i pre l', l = pre ++ l' -> length pre = i -> i <= k -> on_button pages m p h i l' = OK m1).
  { intros i pre l'. revert i pre. induction l' as [|x l' IH]; intros i pre El Li Hi.
    - rewrite app_nil_r in El. apply nth_lt in N. subst l. lia.
    - assert (X : nth_error l i = Some x) by (rewrite El, nth_error_app2 by lia; rewrite Li, Nat.sub_diag; reflexivity).
      cbn [on_button]. destruct (Nat.eq_dec i k) as [->|Nk].
      + rewrite N in X. injection X as <-. rewrite B, Nat.eqb_refl, E1. cbn [rbind]. apply button_none. intros j q' Hj. rewrite B1. apply (O (S k + j) q'); [lia|].
        rewrite El, nth_error_app2 by lia. replace (S k + j - length pre) with (S j) by lia. exact Hj.
      + destruct x as [q'|].
        * destruct (O i q' Nk X) as (b & Hb & Nb). rewrite Hb. destruct (Nat.eqb_spec h b); [congruence|]. apply (IH (S i) (pre ++ [Some q'])); [rewrite <- app_assoc; exact El|rewrite app_length; cbn; lia|lia].
        * apply (IH (S i) (pre ++ [None])); [rewrite <- app_assoc; exact El|rewrite app_length; cbn; lia|lia]. }
  apply (G 0 [] l); auto. lia.
Qed.
Lemma touch_ok m p n : forall i, (forall j, i <= j < i + n -> exists h, has m p j h) -> touch m p i n = true.
Proof.
  induction n as [|n IH]; intros i H; [reflexivity|]. cbn [touch]. destruct (H i ltac:(lia)) as (h & Hb & Ha). rewrite Hb. apply andb_true_iff. split.
  - apply existsb_exists. exists h. split; [exact Ha|apply Nat.eqb_refl].
  - apply IH. intros j Hj. apply H. lia.
Qed.
Lemma react_ok pages m st e : acyclic pages -> inv pages m st -> exists m', react pages m e = OK m' /\ inv pages m' (navigate pages st e).
Proof.
  intros A I. pose proof I as (p & r & -> & C & T & B & Ch & L & Sh). destruct e as [|i| |]; cbn [react navigate].
  - rewrite B. destruct r as [|q r]; [exists m; auto|]. unfold back_event, pop_page. rewrite C. destruct Ch as [C1 C2]. rewrite C1. cbn [hd_error].
    destruct L as [_ L]. destruct (switch_ok pages m q r C2 L) as (m' & S1 & S2 & _). eauto.
  - rewrite C. destruct (link pages p i) as [q|] eqn:Lk; [|exists m; auto].
    unfold link in Lk. destruct (pages p) as [l|n] eqn:K; [|discriminate]. destruct (nth_error l i) as [[x|]|] eqn:N; try discriminate. injection Lk as ->.
    destruct Sh as [W D]. destruct (W i) as (h & Hb & _); [rewrite K; cbn; eauto|]. rewrite Hb. unfold button_event. rewrite C, K.
    exact (button_ok pages m p r h q i l A I K N Hb).
  - rewrite C. exists m. auto.
  - unfold on_timer. rewrite C. destruct (pages p) as [l|n] eqn:K; [exists m; auto|]. rewrite touch_ok; [exists m; auto|].
    intros j Hj. apply (proj1 Sh). rewrite K. cbn [wanted]. lia.
Qed.
Lemma reacts_ok pages l : acyclic pages -> forall m st, inv pages m st -> exists m', reacts pages m l = OK m' /\ inv pages m' (fold_left (navigate pages) l st).
Proof.
  intro A. induction l as [|e l IH]; intros m st I; [exists m; auto|]. cbn [reacts fold_left]. destruct (react_ok pages m st e A I) as (m' & E & I'). rewrite E. cbn [rbind]. apply IH, I'.
Qed.
Lemma start_ok pages r : exists m, enter_page pages menu_start r = OK m /\ inv pages m [r].
Proof.
  unfold enter_page. destruct (switch_ok pages (set_previous_page menu_start r (cur menu_start)) r []) as (m & S1 & S2 & _); [|exact I|eauto].
  split; [|exact I]. unfold set_previous_page. cbn [history_previous cur menu_start hd_error]. now rewrite Nat.eqb_refl.
Qed.
(** C97. For menus in which no page leads back to itself: after any events the screen shows the page on top of the user's stack, its title, and the
    back button exactly when there is a page to go back to; no page or widget that is not there is used. *)
Theorem menu_navigation_partial pages r l : acyclic pages ->
  exists m m', enter_page pages menu_start r = OK m /\ reacts pages m l = OK m' /\
    let st := fold_left (navigate pages) l [r] in
    cur m' = hd_error st /\ title m' = hd_error st /\ back_enabled m' = (1 <? length st) /\ st <> [].
Proof.
  intro A. destruct (start_ok pages r) as (m & E & I). destruct (reacts_ok pages l A m [r] I) as (m' & E' & I'). exists m, m'. split; [exact E|]. split; [exact E'|].
  cbv zeta. destruct I' as (p & r' & -> & C & T & B & _). rewrite C, T, B. cbn [hd_error length]. repeat split; [destruct r'; reflexivity|discriminate].
Qed.
(** The menus of the robot are of this kind; their first two pages are the root and the score. *)
Definition gui_rank (p : page) : nat := match p with 0 => 0 | 1 | 2 | 3 | 4 => 1 | _ => 2 end.
Lemma gui_acyclic n : acyclic (gui_pages n).
Proof.
  exists gui_rank. intros p i q H. unfold link in H. destruct (gui_pages n p) as [l|] eqn:K; [|discriminate].
  destruct (nth_error l i) as [[x|]|] eqn:N; try discriminate. injection H as ->.
  assert (G4 : forall i x, nth_error (map (fun i => if S i <=? n then Some (13 + i) else None) (seq 0 6)) i = Some (Some x) -> 13 <= x).
  { intros j x H. rewrite nth_error_map in H. destruct (nth_error (seq 0 6) j) as [k|]; [|discriminate H]. cbn [option_map] in H. destruct (S k <=? n); [|discriminate H]. assert (x = 13 + k) by congruence. lia. }
  destruct p as [|[|[|[|[|p]]]]]; cbn [gui_pages] in K; try discriminate K.
  - injection K as <-. do 6 (destruct i as [|i]; [cbn in N; first [discriminate N | injection N as <-; cbn; lia]|]). destruct i; discriminate N.
  - injection K as <-. do 6 (destruct i as [|i]; [cbn in N; first [discriminate N | injection N as <-; cbn; lia]|]). destruct i; discriminate N.
  - injection K as <-. do 6 (destruct i as [|i]; [cbn in N; first [discriminate N | injection N as <-; cbn; lia]|]). destruct i; discriminate N.
  - assert (E : forall a b, MenuPage a = MenuPage b -> a = b) by congruence. apply E in K. subst l. apply G4 in N. do 5 (destruct q as [|q]; [lia|]). cbn. lia.
  - exfalso. do 2 (destruct p as [|p]; [discriminate K|]). cbn [gui_pages] in K. destruct (_ <? 13); discriminate K.
Qed.
Theorem gui_navigation n l : exists m m2 m', enter_page (gui_pages n) menu_start 0 = OK m /\ enter_page (gui_pages n) m 2 = OK m2 /\ reacts (gui_pages n) m2 l = OK m' /\
  let st := fold_left (navigate (gui_pages n)) l [2; 0] in
  cur m' = hd_error st /\ title m' = hd_error st /\ back_enabled m' = (1 <? length st) /\ last st 2 = 0.
Proof.
  pose proof (gui_acyclic n) as A. destruct (start_ok (gui_pages n) 0) as (m & E & I). destruct (enter_ok (gui_pages n) m 0 [] 2 1 A I eq_refl) as (m2 & E2 & I2 & _).
  destruct (reacts_ok (gui_pages n) l A m2 [2; 0] I2) as (m' & E' & I'). exists m, m2, m'. split; [exact E|]. split; [exact E2|]. split; [exact E'|].
  cbv zeta. assert (La : last (fold_left (navigate (gui_pages n)) l [2; 0]) 2 = 0).
  { assert (G : forall st, st <> [] -> last st 2 = 0 -> fold_left (navigate (gui_pages n)) l st <> [] /\ last (fold_left (navigate (gui_pages n)) l st) 2 = 0).
    { clear E' I'. induction l as [|e l' IH]; intros st N H; [auto|]. cbn [fold_left]. apply IH.
      - destruct e, st as [|p [|q st]]; cbn [navigate]; try congruence; destruct (link _ _ _); congruence.
      - destruct e, st as [|p [|q st]]; cbn [navigate]; auto; destruct (link _ _ _); auto; exact H. }
    apply G; [discriminate|reflexivity]. }
  destruct I' as (p & r' & E0 & C & T & B & _). rewrite E0 in *. rewrite C, T, B. cbn [hd_error length]. repeat split; [destruct r'; reflexivity|exact La].
Qed.
Example ex_gui : exists m m2 m', enter_page (gui_pages 4) menu_start 0 = OK m /\ enter_page (gui_pages 4) m 2 = OK m2 /\
  reacts (gui_pages 4) m2 [Timer; Back; Button 3; Button 2; Timer; Other; Back] = OK m' /\ cur m' = Some 4 /\ back_enabled m' = true.
Proof.
  destruct (gui_navigation 4 [Timer; Back; Button 3; Button 2; Timer; Other; Back]) as (m & m2 & m' & E & E2 & E' & H). exists m, m2, m'.
  change (fold_left _ _ _) with [4; 0] in H. destruct H as (C & _ & B & _). auto.
Qed.
(** Two pages that lead to each other: after going there and back with the back button, back never ends at the first page. *)
Theorem menu_cycle_refuted : exists pages, let l := [Button 0; Button 0; Back; Back] in
  (exists m m', enter_page pages menu_start 0 = OK m /\ reacts pages m l = OK m' /\ back_enabled m' = true) /\
  fold_left (navigate pages) l [0] = [0].
Proof.
  set (pages := fun p => match p with 0 => MenuPage [Some 1] | _ => MenuPage [Some 0] end). exists pages. cbv zeta. split; [|reflexivity].
  assert (F : match enter_page pages menu_start 0 with OK m => match reacts pages m [Button 0; Button 0; Back; Back] with OK m' => back_enabled m' | BAD => false end | BAD => false end = true)
    by (vm_compute; reflexivity).
  destruct (enter_page pages menu_start 0) as [m|]; [|discriminate F]. destruct (reacts pages m _) as [m'|] eqn:E; [|discriminate F]. exists m, m'. auto.
Qed.
(** The timer has its own thread: if it runs while the page is left, it uses a widget that was destroyed. *)
Theorem menu_timer_refuted n : exists m m2, enter_page (gui_pages n) menu_start 0 = OK m /\ enter_page (gui_pages n) m 2 = OK m2 /\
  timer_between (gui_pages n) m2 0 = BAD.
Proof.
  destruct (start_ok (gui_pages n) 0) as (m & E & I). destruct (enter_ok (gui_pages n) m 0 [] 2 1 (gui_acyclic n) I eq_refl) as (m2 & E2 & I2 & _).
  exists m, m2. split; [exact E|]. split; [exact E2|]. destruct I2 as (p & r & Es & C & _). assert (p = 2) as -> by congruence.
  unfold timer_between, on_timer, delete_container, set_alive. cbn [cur]. rewrite C. cbn [gui_pages touch buttons alive existsb]. destruct (buttons m2 2 0); reflexivity.
Qed.
Print Assumptions menu_navigation_partial.
Print Assumptions gui_navigation.
Print Assumptions menu_cycle_refuted.
Print Assumptions menu_timer_refuted.
