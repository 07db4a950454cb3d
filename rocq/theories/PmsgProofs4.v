(** Proofs about all that the loader of parameters accepts and refuses, for whole documents. *)
From Coq Require Import ZArith List Bool Arith Lia ZifyBool.
From Verif Require Import CBase Buf CmpModel CmpSpec CmpProofs ParamModel ParamSpec ParamProofs ParamProofs2 PmsgModel PmsgSpec PmsgProofs PmsgProofs2 PmsgLoadSpec PmsgProps PmsgProofs3.
Import ListNotations.
Local Open Scope Z_scope.

Section Docs.
Variables (cap : Z) (i2f : Z -> Z).

(** The value of an entry. *)
Definition entry (fuel : nat) (h : heap) (n : nat) (id : str) (o : obj) (c : ctx) : rr :=
  match cmp_object_as_map o with
  | Some inner =>
      match namespace_find h n id with
      | OK (Some sub) => read_namespace cap i2f fuel h sub inner c
      | OK None => RDONE (discard o) h c
      | ASSERT => RASSERT
      | BAD => RUB
      end
  | None =>
      match parameter_find h n id with
      | OK (Some p) => read_parameter cap i2f h p o c
      | OK None => RDONE (discard o) h c
      | ASSERT => RASSERT
      | BAD => RUB
      end
  end.
Lemma read_ns_eq fuel h n k c : read_namespace cap i2f (S fuel) h n k c =
  if k <=? 0 then RDONE 0 h c
  else match cmp_read_str_size c with
       | UB => RUB
       | Fail c => RDONE (-1) h c
       | Ok id_size c =>
           if cap <? u32 (id_size + 1) then RASSERT
           else match rd id_size c with
                | UB => RUB
                | Fail c => RDONE (-1) h c
                | Ok id c =>
                    match cmp_read_object c with
                    | UB => RUB
                    | Fail c => RDONE (-1) h c
                    | Ok o c => and_then (entry fuel h n id o c) (fun h c => read_namespace cap i2f fuel h n (k - 1) c)
                    end
                end
       end.
Proof. reflexivity. Qed.

Lemma means_same hist hist0 n id p : ns_decls hist = ns_decls hist0 -> par_decls hist = par_decls hist0 -> means hist n id p <-> means hist0 n id p.
Proof. intros A B. unfold means, names. now rewrite A, B. Qed.
Lemma values_fit_osets hist sets : values_fit cap hist -> values_fit cap (hist ++ map oset sets).
Proof. unfold values_fit. now rewrite par_decls_osets. Qed.

(** ** Completeness *)
Lemma head fuel h n k c pre hd id tl post : here c pre (hd ++ id ++ tl) post -> str_header (blen id) hd -> blen id < cap ->
  exists c2, c2 = moved c (blen pre + blen hd + blen id) /\ here c2 ((pre ++ hd) ++ id) tl post /\
    read_namespace cap i2f (S fuel) h n (Z.of_nat (S k)) c =
    match cmp_read_object c2 with
    | UB => RUB
    | Fail c => RDONE (-1) h c
    | Ok o c => and_then (entry fuel h n id o c) (fun h c => read_namespace cap i2f fuel h n (Z.of_nat k) c)
    end.
Proof.
  intros Hc SH L. destruct (here_acc _ _ _ _ _ _ _ (str_acc _ _ SH) Hc) as [E1 H1].
  destruct (here_acc _ _ _ _ _ _ _ (accepts_rd id) H1) as [E2 H2].
  assert (Sz : blen id + 1 < 2 ^ 32).
  { destruct Hc as (M & _ & S & B). rewrite S, M, !blen_app in B. pose proof (blen_nonneg pre). pose proof (blen_nonneg tl). pose proof (blen_nonneg post).
    assert (1 <= blen hd) by (destruct SH; unfold blen; cbn; lia). lia. }
  eexists. split; [reflexivity|]. split.
  - replace (moved c (blen pre + blen hd + blen id)) with (moved (moved c (blen pre + blen hd)) (blen (pre ++ hd) + blen id)); [exact H2|].
    unfold moved; cbn [mem size ro err]. f_equal. rewrite blen_app. lia.
  - rewrite read_ns_eq. replace (Z.of_nat (S k) <=? 0) with false by (symmetry; lia). rewrite E1.
    pose proof (blen_nonneg id). rewrite uid32 by lia. replace (cap <? blen id + 1) with false by (symmetry; lia).
    rewrite E2. replace (moved (moved c (blen pre + blen hd)) (blen (pre ++ hd) + blen id)) with (moved c (blen pre + blen hd + blen id)).
    2:{ unfold moved; cbn [mem size ro err]. f_equal. rewrite blen_app. lia. }
    destruct (cmp_read_object _); try reflexivity. f_equal. now replace (Z.of_nat (S k) - 1) with (Z.of_nat k) by lia.
Qed.
Lemma here_split c pre a b post : here c pre (a ++ b) post -> here c pre a (b ++ post).
Proof. intros (A & B). split; [|exact B]. now rewrite A, <- app_assoc. Qed.
Lemma here_moved c pre a b post i : here c pre (a ++ b) post -> i = blen pre + blen a -> here (moved c i) (pre ++ a) b post.
Proof.
  intros (A & B & C & D) ->. split; [|split; [|split]]; cbn [moved mem index size].
  - now rewrite A, <- !app_assoc.
  - now rewrite blen_app.
  - exact C.
  - exact D.
Qed.
Lemma moved_moved c i j : moved (moved c i) j = moved c j.
Proof. reflexivity. Qed.

Theorem read_loads hist0 n k sets bs : loads cap i2f hist0 false n k sets bs ->
  forall hist h fuel c pre post, ns_decls hist = ns_decls hist0 -> par_decls hist = par_decls hist0 -> run hist = OK h ->
    ids_ok hist -> values_fit cap hist -> (n < length (ns_decls hist0))%nat ->
    here c pre bs post -> (length bs <= fuel)%nat ->
    exists h', run (hist ++ map oset sets) = OK h' /\
      read_namespace cap i2f fuel h n (Z.of_nat k) c = RDONE 0 h' (moved c (blen pre + blen bs)).
Proof.
  induction 1 as [n|n k id hd p m pid d a vb sets bs SH CP ME D AC ES IH|n k id hd p m pid d vb sets bs SH CP ME D SC NA ES IH
                 |n k id hd vb sets bs SH CP ME NU SC ES IH|n k id hd comps m k' mb inner bs' sets bs SH CP CO LE MH EI IHI ES IH];
    intros hist h fuel c pre post NL PL R IO FP Hn Hc Hf.
  - exists h. cbn [map]. rewrite app_nil_r. split; [exact R|]. destruct fuel; cbn [read_namespace Z.of_nat Z.leb Z.compare];
      rewrite blen_nil, Z.add_0_r; destruct Hc as (_ & <- & _); now destruct c.
  - rewrite !app_length in Hf. pose proof (str_ne _ _ SH). destruct fuel as [|fuel]; [lia|].
    destruct (head fuel h n k c pre hd id (vb ++ bs) post Hc SH CP) as (c2 & -> & H2 & ->).
    rewrite <- PL in D. destruct (read_accepted cap i2f _ _ _ _ _ _ _ _ R FP D AC _ _ _ (here_split _ _ _ _ _ H2)) as (o & b1 & b2 & h1 & Eb & O & NM & ST & RP).
    assert (H2' := H2). rewrite Eb, <- (app_assoc b1) in H2'. destruct (here_acc _ _ _ _ _ _ _ (ob_acc _ _ O) H2') as [-> _].
    unfold entry. rewrite NM, (means_find _ _ R IO n id p) by (first [now rewrite NL | now apply (means_same hist hist0)]).
    rewrite RP. cbn [and_then Z.eqb]. rewrite moved_moved.
    destruct (IH (hist ++ [OSet p a]) h1 fuel (moved c (blen ((pre ++ hd) ++ id) + blen vb)) (((pre ++ hd) ++ id) ++ vb) post) as (h' & R' & E').
    + change [OSet p a] with (map oset [(p, a)]). now rewrite ns_decls_osets.
    + change [OSet p a] with (map oset [(p, a)]). now rewrite par_decls_osets.
    + now apply run_app_op with (h := h).
    + apply (ids_ok_osets hist [(p, a)]), IO.
    + apply (values_fit_osets hist [(p, a)]), FP.
    + exact Hn.
    + rewrite <- (moved_moved c (blen pre + blen hd + blen id)). now apply (here_moved _ _ _ _ _ _ H2).
    + lia.
    + exists h'. split; [cbn [map]; rewrite <- R'; now rewrite <- app_assoc|].
      rewrite E', moved_moved. do 2 f_equal. rewrite !blen_app. lia.
  - rewrite !app_length in Hf. pose proof (str_ne _ _ SH). destruct fuel as [|fuel]; [lia|].
    destruct (head fuel h n k c pre hd id (vb ++ bs) post Hc SH CP) as (c2 & -> & H2 & ->).
    apply scalar_ob in SC as (o & O & Di). destruct (here_acc _ _ _ _ _ _ _ (ob_acc _ _ O) H2) as [-> H3].
    rewrite <- PL in D. unfold entry. rewrite (proj1 (discard_scalar _ Di)), (means_find _ _ R IO n id p) by (first [now rewrite NL | now apply (means_same hist hist0)]).
    rewrite (read_misfit cap i2f _ _ _ _ _ _ _ _ _ R D O Di NA). cbn [and_then Z.eqb].
    destruct (IH hist h fuel _ _ post NL PL R IO FP Hn H3) as (h' & R' & E'); [lia|].
    exists h'. split; [exact R'|]. rewrite E', !moved_moved. do 2 f_equal. rewrite !blen_app. lia.
  - rewrite !app_length in Hf. pose proof (str_ne _ _ SH). destruct fuel as [|fuel]; [lia|].
    destruct (head fuel h n k c pre hd id (vb ++ bs) post Hc SH CP) as (c2 & -> & H2 & ->).
    apply scalar_ob in SC as (o & O & Di). destruct (here_acc _ _ _ _ _ _ _ (ob_acc _ _ O) H2) as [-> H3].
    unfold entry. rewrite (proj1 (discard_scalar _ Di)), (nomeans_find _ _ R IO n id).
    2:{ now rewrite NL. }
    2:{ now apply NU. }
    2:{ intros p M. apply (ME p). now apply (means_same hist hist0). }
    rewrite Di. cbn [and_then Z.eqb].
    destruct (IH hist h fuel _ _ post NL PL R IO FP Hn H3) as (h' & R' & E'); [lia|].
    exists h'. split; [exact R'|]. rewrite E', !moved_moved. do 2 f_equal. rewrite !blen_app. lia.
  - rewrite !app_length in Hf. pose proof (str_ne _ _ SH). destruct fuel as [|fuel]; [lia|].
    destruct (head fuel h n k c pre hd id (mb ++ bs' ++ bs) post Hc SH CP) as (c2 & -> & H2 & ->).
    apply map_ob in MH as (o & O & Mo). destruct (here_acc _ _ _ _ _ _ _ (ob_acc _ _ O) H2) as [-> H3].
    unfold entry. rewrite Mo. rewrite <- NL in LE, Hn. rewrite (leads_find _ _ R IO n id comps m Hn CO LE).
    assert (Hm := leads_lt _ _ _ _ Hn LE). rewrite NL in Hm, Hn.
    destruct (IHI hist h fuel _ _ (bs ++ post) NL PL R IO FP Hm (here_split _ _ _ _ _ H3)) as (h1 & R1 & E1); [lia|].
    rewrite E1. cbn [and_then Z.eqb].
    destruct (IH (hist ++ map oset inner) h1 fuel (moved (moved (moved c (blen pre + blen hd + blen id)) (blen ((pre ++ hd) ++ id) + blen mb)) (blen (((pre ++ hd) ++ id) ++ mb) + blen bs')) ((((pre ++ hd) ++ id) ++ mb) ++ bs') post) as (h' & R' & E').
    + now rewrite ns_decls_osets.
    + now rewrite par_decls_osets.
    + exact R1.
    + now apply ids_ok_osets.
    + now apply values_fit_osets.
    + exact Hn.
    + now apply (here_moved _ _ _ _ _ _ H3).
    + lia.
    + exists h'. split; [rewrite map_app, app_assoc; exact R'|]. rewrite E', !moved_moved. do 2 f_equal. rewrite !blen_app. lia.
Qed.

Theorem read_loadable hist h n sets bs rest : run hist = OK h -> ids_ok hist -> values_fit cap hist ->
  (n < length (ns_decls hist))%nat -> loadable cap i2f hist false n sets bs -> blen (bs ++ rest) < 2 ^ 32 ->
  exists h', run (hist ++ map oset sets) = OK h' /\
    parameter_msgpack_read cap i2f h n (bs ++ rest) = RDONE 0 h' (mkctx (bs ++ rest) (blen (bs ++ rest)) (blen bs) true 0).
Proof.
  intros R IO FP Hn (k & hd & es & MH & E & ->) L. unfold parameter_msgpack_read, parameter_msgpack_read_cmp.
  set (c := cmp_mem_access_ro_init ((hd ++ es) ++ rest) (blen ((hd ++ es) ++ rest))).
  assert (Hc : here c [] (hd ++ es) rest) by (repeat split; assumption).
  destruct (here_acc _ _ _ _ _ _ _ (map_acc _ _ MH) Hc) as [-> H1].
  destruct (read_loads _ _ _ _ _ E hist h (S (Z.to_nat (size c))) (moved c (blen [] + blen hd)) ([] ++ hd) rest) as (h' & R' & E'); auto.
  { cbn [c cmp_mem_access_ro_init size]. unfold blen. rewrite Nat2Z.id, !app_length. lia. }
  exists h'. split; [exact R'|]. cbn [moved size]. rewrite E'. unfold moved; cbn [mem size ro err c cmp_mem_access_ro_init app].
  do 2 f_equal. now rewrite blen_app.
Qed.

(** ** Soundness *)
Definition okc (c : ctx) : Prop := sane 8 c /\ bytes_ok (mem c).
Definition consumed (c : ctx) (bs : list Z) (c' : ctx) : Prop :=
  exists post, skipn (Z.to_nat (index c)) (mem c) = bs ++ post /\ c' = moved c (index c + blen bs).
Lemma skipn_split (l : list Z) i : 0 <= i <= blen l -> l = firstn (Z.to_nat i) l ++ skipn (Z.to_nat i) l /\ blen (firstn (Z.to_nat i) l) = i.
Proof. intro H. split; [now rewrite firstn_skipn|]. unfold blen in *. rewrite firstn_length. lia. Qed.
Lemma con_nil c : consumed c [] c.
Proof. exists (skipn (Z.to_nat (index c)) (mem c)). split; [reflexivity|]. rewrite blen_nil, Z.add_0_r. now destruct c. Qed.
Lemma con_inside c bs c' : okc c -> consumed c bs c' -> index c + blen bs <= size c /\ okc c'.
Proof.
  intros [(S & I & B) BO] (post & E & ->). assert (L : index c + blen bs <= size c).
  { apply (f_equal blen) in E. rewrite blen_app in E. pose proof (blen_nonneg post). unfold blen in *. rewrite skipn_length in E. lia. }
  split; [exact L|]. split; [|exact BO]. unfold sane, moved; cbn [mem size index]. pose proof (blen_nonneg bs). lia.
Qed.
Lemma con_app c a c1 b c2 : okc c -> consumed c a c1 -> consumed c1 b c2 -> consumed c (a ++ b) c2.
Proof.
  intros OK1 C1 C2. pose proof (con_inside _ _ _ OK1 C1) as [L _]. destruct OK1 as [(S & I & B) BO].
  destruct C1 as (p1 & E1 & ->), C2 as (p2 & E2 & ->). exists p2. cbn [moved mem index] in *. split.
  - rewrite E1, <- app_assoc. f_equal. rewrite <- E2. pose proof (blen_nonneg a).
    replace (Z.to_nat (index c + blen a)) with (Z.to_nat (index c) + length a)%nat by (unfold blen in *; lia).
    rewrite skipn_plus, E1. now rewrite skipn_app, skipn_all, Nat.sub_diag.
  - rewrite blen_app. unfold moved; cbn [mem size ro err]. f_equal. lia.
Qed.
Lemma con_len c bs c' : okc c -> consumed c bs c' -> blen bs < 2 ^ 32.
Proof. intros O C. pose proof (con_inside _ _ _ O C) as [L _]. destruct O as [(S & I & B) _]. lia. Qed.

Lemma obj_sound c o c' : okc c -> cmp_read_object c = Ok o c' -> exists bs, ob o bs /\ consumed c bs c'.
Proof.
  intros [S BO] E. pose proof (read_object_total c S BO) as T. rewrite E in T.
  destruct (skipn (Z.to_nat (index c)) (mem c)) as [|t rest] eqn:K; [discriminate|].
  destruct (t =? 0xC1); [discriminate|]. destruct (follow t <=? blen rest); [|destruct T as (? & ? & _); discriminate].
  destruct T as (o' & post & O & Eq & L & T). injection T as <- ->. exists (obj_bytes o). split; [now split|].
  exists post. split; [congruence|]. rewrite L. unfold moved, set_index. f_equal. lia.
Qed.
Lemma as_sound {A} (f : obj -> option A) c a c' : okc c -> read_as f c = Ok a c' -> exists o bs, ob o bs /\ f o = Some a /\ consumed c bs c'.
Proof.
  intros O E. unfold read_as, mbind in E. destruct (cmp_read_object c) as [|c1|o c1] eqn:Eo; try discriminate.
  destruct (f o) eqn:F; [|discriminate]. injection E as <- <-. destruct (obj_sound _ _ _ O Eo) as (bs & B & C). exists o, bs. auto.
Qed.
Lemma rd_sound n c l c' : okc c -> rd n c = Ok l c' -> consumed c l c' /\ blen l = n.
Proof.
  intros [(S & I & B) BO] E. unfold rd in E. destruct (u32 (index c + n) <=? size c); [|discriminate].
  unfold bslice in E. destruct ((0 <=? index c) && (0 <=? n) && (index c + n <=? blen (mem c))) eqn:G; [|discriminate].
  injection E as <- <-. rewrite uid32 by lia.
  destruct (skipn_split (mem c) (index c)) as [_ _]; [lia|].
  assert (L : blen (firstn (Z.to_nat n) (skipn (Z.to_nat (index c)) (mem c))) = n).
  { unfold blen in *. rewrite firstn_length, skipn_length. lia. }
  split; [|exact L]. exists (skipn (Z.to_nat n) (skipn (Z.to_nat (index c)) (mem c))). split; [now rewrite firstn_skipn|]. now rewrite L.
Qed.

Lemma vec_sound : forall n e c, okc c ->
  match get_vector i2f n e c with
  | VUB => True
  | VRET r _ => r = -1
  | VOK l c' => e = false /\ length l = n /\ exists els, Forall2 (number i2f) l els /\ consumed c (concat els) c'
  end.
Proof.
  induction n as [|n IH]; intros e c O; cbn [get_vector].
  - destruct e; [reflexivity|]. split; [reflexivity|]. split; [reflexivity|]. exists []. split; [constructor|apply con_nil].
  - destruct (cmp_read_object c) as [|c1|o c1] eqn:E; auto. destruct (obj_sound _ _ _ O E) as (bs & B & C).
    destruct (con_inside _ _ _ O C) as [_ O1]. destruct e.
    + destruct (discard_two o) as [-> | ->]; cbn [Z.eqb]; [|reflexivity]. specialize (IH true c1 O1).
      destruct (get_vector i2f n true c1); auto. now destruct IH as [IH _].
    + destruct (get_float i2f o) as [v|] eqn:G.
      * specialize (IH false c1 O1). destruct (get_vector i2f n false c1); auto. destruct IH as (_ & L & els & F & C').
        split; [reflexivity|]. split; [cbn; congruence|]. exists (bs :: els). split; [constructor; [apply number_ob; eauto|exact F]|].
        cbn [concat]. eapply con_app; eauto.
      * destruct (discard_two o) as [-> | ->]; cbn [Z.eqb]; [|reflexivity]. specialize (IH true c1 O1).
        destruct (get_vector i2f n true c1); auto. now destruct IH as [IH _].
Qed.

(** What reading a value gives. *)
Lemma param_sound hist h p m id d o b1 c r h' c' : run hist = OK h -> nth_error (par_decls hist) p = Some (m, id, d) ->
  ob o b1 -> blen b1 < 2 ^ 32 -> okc c -> read_parameter cap i2f h p o c = RDONE r h' c' ->
  (exists a b2, accepted i2f d a (b1 ++ b2) /\ consumed c b2 c' /\ r = 0 /\ parameter_set h p a = OK h') \/
  (h' = h /\ c' = c /\ r = 0 /\ discard o = 0 /\ forall a, ~ accepted i2f d a b1) \/
  (h' = h /\ (r = -1 \/ r = 1)).
Proof.
  intros R D O LB OC E. apply inv_run in R as I. assert (Hp : (p < length (pars h))%nat).
  { rewrite (inv_length _ _ I). apply nth_error_Some. congruence. }
  destruct (lt_nth _ _ _ Hp) as [x Hx]. destruct (kinds_run _ _ R _ _ Hx) as (m' & id' & d' & D' & K).
  rewrite D in D'. inversion D'; subst m' id' d'. unfold read_parameter in E. rewrite Hx in E.
  assert (SET : forall a c1, set_done h p a c1 = RDONE r h' c' -> r = 0 /\ c' = c1 /\ parameter_set h p a = OK h').
  { intros a c1. unfold set_done. destruct (parameter_set h p a); try discriminate. intro H. now injection H as <- <- <-. }
  assert (HD : forall n hd s, b1 = hd ++ s -> (str_header n hd \/ array_header n hd) -> discard o = -1).
  { intros n hd s -> [H|H]; [apply str_ob in H as (o' & O' & H)|apply arr_ob in H as (o' & O' & H)];
      destruct (ob_prefix o o' (hd ++ s) hd [] s O O') as (-> & _); rewrite ?app_nil_r; auto;
      [eapply discard_str|eapply discard_arr]; eauto. }
  assert (MIS : forall (a : option arg), (forall a0, accepted i2f d a0 b1 -> a = Some a0 \/ discard o = -1) -> a = None ->
           RDONE (discard o) h c = RDONE r h' c' \/ RDONE (if discard o =? 0 then 0 else 1) h c = RDONE r h' c' ->
           (h' = h /\ c' = c /\ r = 0 /\ discard o = 0 /\ forall a, ~ accepted i2f d a b1) \/ (h' = h /\ (r = -1 \/ r = 1))).
  { intros a U -> H. destruct (discard_two o) as [Z|Z]; rewrite Z in H; cbn [Z.eqb] in H.
    - left. assert (r = 0 /\ h' = h /\ c' = c) as (-> & -> & ->) by (destruct H as [H|H]; now injection H as <- <- <-).
      repeat split; auto. intros a A. destruct (U a A) as [|]; [discriminate|congruence].
    - right. destruct H as [H|H]; injection H as <- <- <-; auto. }
  assert (EL : forall n mk, read_elements cap i2f h p n c mk = RDONE r h' c' -> 0 <= n ->
            (exists l els, Z.of_nat (length l) = n /\ Forall2 (number i2f) l els /\ consumed c (concat els) c' /\ r = 0 /\ parameter_set h p (mk l) = OK h')
            \/ (h' = h /\ r = -1)).
  { intros n mk H N. unfold read_elements in H. destruct (cap <? _); [discriminate|].
    pose proof (vec_sound (Z.to_nat n) false c OC) as V. destruct (get_vector i2f (Z.to_nat n) false c) as [|r1 c1|l c1]; [discriminate| |].
    - injection H as <- <- <-. auto.
    - left. destruct V as (_ & L & els & F & C). apply SET in H as (-> & -> & ST). exists l, els. repeat split; auto. lia. }
  destruct (pval x), d; cbn in K; try easy.
  - unfold read_parameter_scalar in E. destruct (get_float i2f o) as [v|] eqn:G.
    + left. apply SET in E as (-> & -> & ST). exists (AScalar v), []. rewrite app_nil_r. split; [constructor; apply number_ob; eauto|].
      repeat split; auto using con_nil.
    + right. apply (MIS None); auto. intros a A. inversion A as [? v ? N| | | | |]; subst. apply number_ob in N as (o' & O' & N).
      rewrite (ob_fun _ _ _ O O' LB), N in G. discriminate.
  - unfold read_parameter_boolean in E. destruct (cmp_object_as_bool o) as [v|] eqn:G.
    + left. apply SET in E as (-> & -> & ST). exists (ABool v), []. rewrite app_nil_r. split; [rewrite (proj2 (bool_ob v b1)) by eauto; constructor|].
      repeat split; auto using con_nil.
    + right. apply (MIS None); auto. intros a A. inversion A as [| |? v| | |]; subst. destruct (proj1 (bool_ob v _) eq_refl) as (o' & O' & N).
      rewrite (ob_fun _ _ _ O O' LB), N in G. discriminate.
  - unfold read_parameter_integer in E. destruct (cmp_object_as_int o) as [v|] eqn:G.
    + left. apply SET in E as (-> & -> & ST). exists (AInt v), []. rewrite app_nil_r.
      destruct (proj2 (int_ob v b1)) as (A & B & C); [eauto|]. split; [now constructor|]. repeat split; auto using con_nil.
    + right. apply (MIS None); auto. intros a A. inversion A as [|? v ? N1 N2 N3| | | |]; subst.
      destruct (proj1 (int_ob v b1)) as (o' & O' & N); [auto|]. rewrite (ob_fun _ _ _ O O' LB), N in G. discriminate.
  - unfold read_parameter_string in E. destruct (cmp_object_as_str o) as [n|] eqn:G.
    + destruct (discard_str _ _ G) as [Di _]. destruct (Z.leb_spec (blen buf) n); [rewrite Di in E; injection E as <- <- <-; auto|].
      destruct (cap <? n); [discriminate|]. destruct (rd n c) as [|c1|s c1] eqn:RD; [discriminate|injection E as <- <- <-; auto|].
      destruct (rd_sound _ _ _ _ OC RD) as [C L]. left. apply SET in E as (-> & -> & ST). exists (AStr s (Z.to_nat n)), s.
      replace (Z.to_nat n) with (length s) in * by (unfold blen in L; lia).
      split; [constructor; [unfold blen in *; lia|rewrite L; apply str_ob; eauto]|]. auto.
    + right. apply (MIS None); auto. intros a A. right. inversion A; subst. eapply HD; eauto.
  - unfold read_parameter_vector in E. destruct (cmp_object_as_array o) as [n|] eqn:G.
    + destruct (discard_arr _ _ G) as [Di _]. rewrite Di in E. change (negb (-1 =? 0)) with true in E. rewrite andb_true_r in E.
      destruct (Z.eqb_spec n (blen buf)) as [->|]; cbn [negb] in E; [|injection E as <- <- <-; auto].
      apply EL in E as [(l & els & L & F & C & -> & ST)|[-> ->]]; [|auto|apply blen_nonneg].
      left. exists (AVec l), (concat els). split; [constructor; auto; [unfold blen in *; lia|]|auto].
      apply arr_ob. exists o. split; [exact O|]. unfold blen in *. now rewrite L.
    + right. apply (MIS None); auto. intros a A. right. inversion A; subst. eapply HD; eauto.
  - unfold read_parameter_var_vector in E. destruct (cmp_object_as_array o) as [n|] eqn:G.
    + destruct (discard_arr _ _ G) as [Di _]. rewrite Di in E. change (negb (-1 =? 0)) with true in E. rewrite andb_true_r in E.
      destruct (Z.ltb_spec (blen buf) n); [injection E as <- <- <-; auto|].
      assert (N0 : 0 <= n) by (unfold cmp_object_as_array, as_u32 in G; destruct (oty o); try discriminate; injection G as <-; apply (uN_range 32); lia).
      apply EL in E as [(l & els & L & F & C & -> & ST)|[-> ->]]; [|auto|exact N0].
      left. exists (AVar l (length l)), (concat els). split; [constructor; auto; [unfold blen in *; lia|]|].
      * apply arr_ob. exists o. split; [exact O|]. unfold blen. now rewrite L.
      * replace (Z.to_nat n) with (length l) in ST by lia. auto.
    + right. apply (MIS None); auto. intros a A. right. inversion A; subst. eapply HD; eauto.
Qed.

Theorem ns_sound hist0 : forall fuel hist h n k c r h' c', ns_decls hist = ns_decls hist0 -> par_decls hist = par_decls hist0 -> run hist = OK h ->
  ids_ok hist -> (n < length (ns_decls hist0))%nat -> okc c -> read_namespace cap i2f fuel h n k c = RDONE r h' c' ->
  (r = 0 \/ r = -1 \/ r = 1) /\
  exists sets, run (hist ++ map oset sets) = OK h' /\
    (r = 0 -> exists bs, loads cap i2f hist0 true n (Z.to_nat k) sets bs /\ consumed c bs c').
Proof.
  induction fuel as [|fuel IH]; intros hist h n k c r h' c' NL PL R IO Hn OC E.
  - cbn [read_namespace] in E. destruct (Z.leb_spec k 0); [|discriminate]. injection E as <- <- <-. split; [auto|].
    exists []. cbn [map]. rewrite app_nil_r. split; [exact R|]. intros _. exists []. replace (Z.to_nat k) with 0%nat by lia. split; [constructor|apply con_nil].
  - rewrite read_ns_eq in E. destruct (Z.leb_spec k 0).
    { injection E as <- <- <-. split; [auto|]. exists []. cbn [map]. rewrite app_nil_r. split; [exact R|]. intros _. exists [].
      replace (Z.to_nat k) with 0%nat by lia. split; [constructor|apply con_nil]. }
    assert (STOP : forall kk r1 c1, (r1 = -1 \/ r1 = 1) -> RDONE r1 h c1 = RDONE r h' c' -> (r = 0 \/ r = -1 \/ r = 1) /\
      exists sets, run (hist ++ map oset sets) = OK h' /\ (r = 0 -> exists bs, loads cap i2f hist0 true n kk sets bs /\ consumed c bs c')).
    { intros kk r1 c1 H1 H2. injection H2 as <- <- <-. split; [intuition|]. exists []. cbn [map]. rewrite app_nil_r. split; [exact R|]. intros ->. lia. }
    destruct (cmp_read_str_size c) as [|c1|sz c1] eqn:E1; [discriminate|(eapply STOP; [|eassumption]; auto)|].
    destruct (as_sound _ _ _ _ OC E1) as (o1 & hd & O1 & S1 & C1).
    destruct (con_inside _ _ _ OC C1) as [_ OC1].
    destruct (Z.ltb_spec cap (u32 (sz + 1))) as [|CP]; [discriminate|].
    destruct (rd sz c1) as [|c2|id c2] eqn:E2; [discriminate|(eapply STOP; [|eassumption]; auto)|].
    destruct (rd_sound _ _ _ _ OC1 E2) as [C2 L2]. destruct (con_inside _ _ _ OC1 C2) as [I2 OC2].
    destruct (cmp_read_object c2) as [|c3|o c3] eqn:E3; [discriminate|(eapply STOP; [|eassumption]; auto)|].
    destruct (obj_sound _ _ _ OC2 E3) as (b1 & O & C3). destruct (con_inside _ _ _ OC2 C3) as [_ OC3].
    assert (SH : str_header (blen id) hd) by (apply str_ob; rewrite L2; eauto).
    assert (CP' : blen id < cap).
    { pose proof (blen_nonneg id). destruct OC1 as [(S & I & B) _]. rewrite <- L2 in CP. rewrite uid32 in CP by lia. lia. }
    pose proof (con_len _ _ _ OC2 C3) as LB.
    replace (Z.to_nat k) with (S (Z.to_nat (k - 1))) by lia.
    (* The rest of the entries, after an entry that made the assignments [s1] and used [vb] *)
    assert (GO : forall s1 h1 c4 vb, run (hist ++ map oset s1) = OK h1 -> consumed c2 vb c4 ->
       (forall sets bs, loads cap i2f hist0 true n (Z.to_nat (k - 1)) sets bs -> loads cap i2f hist0 true n (S (Z.to_nat (k - 1))) (s1 ++ sets) (hd ++ id ++ vb ++ bs)) ->
       read_namespace cap i2f fuel h1 n (k - 1) c4 = RDONE r h' c' -> (r = 0 \/ r = -1 \/ r = 1) /\
       exists sets, run (hist ++ map oset sets) = OK h' /\ (r = 0 -> exists bs, loads cap i2f hist0 true n (S (Z.to_nat (k - 1))) sets bs /\ consumed c bs c')).
    { intros s1 h1 c4 vb R1 C4 LO E4. destruct (con_inside _ _ _ OC2 C4) as [_ OC4].
      destruct (IH (hist ++ map oset s1) h1 n (k - 1) c4 r h' c') as (Hr & sets & R' & Z); auto.
      - now rewrite ns_decls_osets.
      - now rewrite par_decls_osets.
      - now apply ids_ok_osets.
      - split; [exact Hr|]. exists (s1 ++ sets). split; [now rewrite map_app, app_assoc|]. intro r0. destruct (Z r0) as (bs & L & C5).
        exists (hd ++ id ++ vb ++ bs). split; [now apply LO|].
        eapply con_app; [exact OC|exact C1|]. eapply con_app; [exact OC1|exact C2|]. eapply con_app; [exact OC2|exact C4|exact C5]. }
    assert (AND : forall r1 h1 c4 f, and_then (RDONE r1 h1 c4) f = RDONE r h' c' -> (r1 = 0 /\ f h1 c4 = RDONE r h' c') \/ (r1 <> 0 /\ RDONE r1 h1 c4 = RDONE r h' c')).
    { intros r1 h1 c4 f. cbn [and_then]. destruct (Z.eqb_spec r1 0); auto. }
    unfold entry in E. rewrite <- NL in Hn.
    destruct (cmp_object_as_map o) as [inner|] eqn:Mo.
    + destruct (namespace_find h n id) as [[sub|]| |] eqn:F; try discriminate.
      * destruct (find_leads _ _ R IO n id sub Hn F) as (comps & CO & LE). assert (Hs := leads_lt _ _ _ _ Hn LE). rewrite NL in Hn, Hs, LE.
        destruct (read_namespace cap i2f fuel h sub inner c3) as [| | |r1 h1 c4] eqn:E4; try discriminate.
        destruct (IH hist h sub inner c3 r1 h1 c4 NL PL R IO Hs OC3 E4) as (Hr1 & s1 & R1 & Z1).
        destruct (AND _ _ _ _ E) as [[-> E5]|[N5 E5]].
        -- destruct (Z1 eq_refl) as (bs' & L1 & C4). assert (0 <= inner) as IN.
           { unfold cmp_object_as_map, as_u32 in Mo. destruct (oty o); try discriminate; injection Mo as <-; apply (uN_range 32); lia. }
           apply (GO s1 h1 c4 (b1 ++ bs') R1); [eapply con_app; eauto| |exact E5].
           intros sets bs L. rewrite <- app_assoc. eapply lo_child; eauto. rewrite Z2Nat.id by exact IN. apply map_ob. eauto.
        -- injection E5 as <- <- <-. split; [exact Hr1|]. exists s1. split; [exact R1|]. intros ->. easy.
      * rewrite (discard_map _ _ Mo) in E. cbn [and_then Z.eqb] in E. (eapply STOP; [|eassumption]; auto).
    + destruct (parameter_find h n id) as [[p|]| |] eqn:F; try discriminate.
      * assert (ME := find_means _ _ R IO n id p Hn F). assert (ME' := ME). apply (means_same hist hist0) in ME'; auto.
        destruct ME as (comps & last & _ & _ & m & _ & [d D] & _).
        destruct (read_parameter cap i2f h p o c3) as [| | |r1 h1 c4] eqn:E4; try discriminate.
        destruct (param_sound _ _ _ _ _ _ _ _ _ _ _ _ R D O LB OC3 E4) as [(a & b2 & A & C4 & -> & ST)|[(-> & -> & -> & Di & NA)|(-> & Hr)]].
        -- cbn [and_then Z.eqb] in E. apply (GO [(p, a)] h1 c4 (b1 ++ b2)) in E; auto.
           ++ cbn [map]. now apply run_app_op with (h := h).
           ++ eapply con_app; eauto.
           ++ intros sets bs L. cbn [app]. rewrite PL in D. eapply lo_set; eauto.
        -- cbn [and_then Z.eqb] in E. apply (GO [] h c3 b1) in E; auto.
           ++ cbn [map]. now rewrite app_nil_r.
           ++ intros sets bs L. cbn [app]. rewrite PL in D. eapply lo_misfit; eauto. apply scalar_ob. eauto.
        -- destruct (AND _ _ _ _ E) as [[-> _]|[_ E5]]; [lia|]. (eapply STOP; [|eassumption]; auto).
      * destruct (discard_two o) as [Z|Z]; rewrite Z in E; cbn [and_then Z.eqb] in E; [|(eapply STOP; [|eassumption]; auto)].
        apply (GO [] h c3 b1) in E; auto.
        -- cbn [map]. now rewrite app_nil_r.
        -- intros sets bs L. cbn [app]. eapply lo_unknown; eauto; [|discriminate|apply scalar_ob; eauto].
           intros p M. apply (means_same hist hist0) in M; auto. eapply (find_nomeans _ _ R IO n id); eauto.
Qed.

Theorem load_sound hist h root buf r h' c : run hist = OK h -> ids_ok hist -> (root < length (ns_decls hist))%nat ->
  bytes_ok buf -> blen buf + 8 < 2 ^ 32 -> parameter_msgpack_read cap i2f h root buf = RDONE r h' c ->
  (r = 0 \/ r = -1 \/ r = 1) /\
  exists sets, run (hist ++ map oset sets) = OK h' /\
    (r = 0 -> exists bs rest, buf = bs ++ rest /\ index c = blen bs /\ loadable cap i2f hist true root sets bs).
Proof.
  intros R IO Hn BO L E. unfold parameter_msgpack_read, parameter_msgpack_read_cmp in E.
  set (c0 := cmp_mem_access_ro_init buf (blen buf)) in *.
  assert (OC : okc c0) by (split; [|exact BO]; pose proof (blen_nonneg buf); repeat split; cbn [c0 cmp_mem_access_ro_init size index mem]; lia).
  destruct (cmp_read_map c0) as [|c1|k c1] eqn:E1; [discriminate| |].
  - injection E as <- <- <-. split; [auto|]. exists []. cbn [map]. rewrite app_nil_r. split; [exact R|]. discriminate.
  - destruct (as_sound _ _ _ _ OC E1) as (o & hd & O & M & C1). destruct (con_inside _ _ _ OC C1) as [_ OC1].
    destruct (ns_sound hist _ hist h root k c1 r h' c eq_refl eq_refl R IO Hn OC1 E) as (Hr & sets & R' & Z).
    split; [exact Hr|]. exists sets. split; [exact R'|]. intro r0. destruct (Z r0) as (bs & LO & C2).
    pose proof (con_app _ _ _ _ _ OC C1 C2) as C. assert (I := proj1 (con_inside _ _ _ OC C)). destruct C as (post & Eb & ->).
    cbn [c0 cmp_mem_access_ro_init index mem Z.to_nat skipn] in Eb. exists (hd ++ bs), post. split; [exact Eb|]. split; [reflexivity|].
    exists (Z.to_nat k), hd, bs. split; [|auto]. apply map_ob. exists o. split; [exact O|].
    rewrite Z2Nat.id; [exact M|]. unfold cmp_object_as_map, as_u32 in M. destruct (oty o); try discriminate; injection M as <-; apply (uN_range 32); lia.
Qed.
End Docs.
