(** The pool of signal buffers. *)
From Coq Require Import ZArith List Bool Lia Permutation.
From Verif Require Import CRes FloatModel PidModel CtlModel BeaconModel BeaconSpec.
Import ListNotations.

Section Pool.
Variable m : machine.
Notation state := (state m).
Notation cont := (contents m).

(** What the reader has copied is what the buffer holds. *)
Definition copied (s : state) : Prop :=
  match rdr m s with
  | Read1 _ sp a => exists g, nth sp (array m s) None = Some g /\ a = start_angle m g
  | Read2 _ sp a l => nth sp (array m s) None = Some {| start_angle := a; length_ := l |}
  | _ => True
  end.
Record inv (s : state) : Prop := {
  i_perm : Permutation (free m s ++ held m s ++ mbox m s) (seq 0 14);
  i_len : length (array m s) = 14;
  i_full : Forall (fun sp => nth sp (array m s) None <> None) (in_hand m s ++ mbox m s);
  i_copy : copied s }.

Lemma perm_facts f h b : Permutation (f ++ h ++ b) (seq 0 14) ->
  NoDup (f ++ h ++ b) /\ length f + length h + length b = 14 /\ Forall (fun sp => sp < 14) (f ++ h ++ b).
Proof.
  intro P. split; [|split].
  - eapply Permutation_NoDup; [symmetry; exact P|apply seq_NoDup].
  - apply Permutation_length in P. rewrite !app_length, seq_length in P. lia.
  - apply Forall_forall. intros x I. apply (Permutation_in _ P) in I. apply in_seq in I. lia.
Qed.
Lemma contents_upd s a sp (x : option (signal m)) l : ~ In sp l -> a = upd (array m s) sp x -> forall s', array m s' = a -> cont s' l = cont s l.
Proof.
  intros N -> s' E. unfold contents. apply map_ext_in. intros y I. rewrite E.
  assert (H : sp <> y) by (intros ->; auto).
  pose proof (upd_other (array m s) sp y x H) as U.
  destruct (nth_error (array m s) y) eqn:Q.
  - rewrite (nth_error_nth _ _ _ Q), (nth_error_nth _ _ _ U). reflexivity.
  - apply nth_error_None in U. apply nth_error_None in Q. rewrite !nth_overflow; auto.
Qed.
Lemma nth_upd_same {A} (l : list A) i x d : i < length l -> nth i (upd l i x) d = x.
Proof. intro H. apply nth_error_nth, upd_same, H. Qed.
Lemma nth_upd_other {A} (l : list A) i j x d : i <> j -> nth j (upd l i x) d = nth j l d.
Proof.
  intro H. pose proof (upd_other l i j x H) as U. destruct (nth_error l j) eqn:Q.
  - rewrite (nth_error_nth _ _ _ Q), (nth_error_nth _ _ _ U). reflexivity.
  - apply nth_error_None in U. apply nth_error_None in Q. rewrite !nth_overflow; auto.
Qed.
Lemma contents_same s s' l : array m s' = array m s -> cont s' l = cont s l.
Proof. intro E. unfold contents. now rewrite E. Qed.
Lemma nodup_r {A} (a b : list A) : NoDup (a ++ b) -> NoDup b.
Proof. induction a; cbn; [auto|]. intro H. inversion H. auto. Qed.
Lemma read_full s sp : nth sp (array m s) None <> None -> exists g, read m s sp = OK g /\ nth sp (array m s) None = Some g.
Proof.
  intro H. unfold read, get. destruct (nth_error (array m s) sp) as [o|] eqn:E.
  - rewrite (nth_error_nth _ _ _ E) in *. destruct o as [g|]; [|congruence]. exists g. auto.
  - apply nth_error_None in E. rewrite nth_overflow in H by lia. congruence.
Qed.

Definition opt {A} (o : option A) : list A := match o with Some x => [x] | None => [] end.
Lemma contents_app s a b : cont s (a ++ b) = cont s a ++ cont s b.
Proof. apply map_app. Qed.

Lemma publish_ok s g : inv s -> exists s', publish m s g = OK s' /\ inv s' /\ sens m s' = sens m s /\
  cont s (in_hand m s ++ mbox m s) ++ map Some (if in_use m s <? 14 then [g] else []) = cont s' (in_hand m s' ++ mbox m s').
Proof.
  intros [P L Fu C]. destruct (perm_facts _ _ _ P) as (Nd & Le & Lt). unfold publish, in_use.
  destruct (free m s) as [|sp f] eqn:Fr.
  - exists s. split; [reflexivity|]. split; [constructor; rewrite ?Fr; auto|]. split; [reflexivity|].
    cbn [length] in Le. replace (_ <? 14) with false by (symmetry; apply Nat.ltb_ge; lia). cbn. now rewrite app_nil_r.
  - cbn [length] in Le. replace (length (held m s) + length (mbox m s) <? 14) with true by (symmetry; apply Nat.ltb_lt; lia).
    replace (length (mbox m s) <? SIGNAL_BUFFER_SIZE) with true by (symmetry; apply Nat.ltb_lt; unfold SIGNAL_BUFFER_SIZE; lia).
    inversion Lt as [|? ? Hsp _]. subst. rewrite put_ok by lia. cbn [rbind].
    set (s' := {| sens := sens m s; array := upd (array m s) sp (Some g); free := f; mbox := mbox m s ++ [sp]; rdr := rdr m s |}).
    exists s'. split; [reflexivity|].
    cbn [app] in Nd. inversion Nd as [|? ? Ni Nd']. subst.
    assert (Nu : ~ In sp (in_hand m s ++ mbox m s)).
    { intro I. apply Ni. apply in_or_app. right. apply in_app_or in I as [I|I]; apply in_or_app; [left|auto].
      unfold in_hand, held in *. destruct (rdr m s); solve [auto | destruct I]. }
    assert (Cs : forall l, ~ In sp l -> cont s' l = cont s l).
    { intros l N. eapply contents_upd; [exact N|reflexivity|reflexivity]. }
    split; [|split; [reflexivity|]].
    + constructor.
      * change (held m s') with (held m s). cbn [s' free mbox]. rewrite <- P. cbn [app]. rewrite !app_assoc.
        symmetry. apply Permutation_cons_append.
      * cbn. now rewrite upd_length.
      * change (in_hand m s') with (in_hand m s). cbn [s' mbox array]. rewrite app_assoc. apply Forall_app. split.
        -- apply Forall_forall. intros x I. rewrite nth_upd_other by (intros ->; auto). rewrite Forall_forall in Fu. auto.
        -- constructor; [|constructor]. rewrite nth_upd_same by lia. discriminate.
      * unfold copied in *. cbn [s' rdr array].
        assert (Hh : forall x, In x (in_hand m s) -> sp <> x) by (intros x I ->; apply Nu, in_or_app; auto).
        unfold in_hand in Hh. destruct (rdr m s); auto; rewrite nth_upd_other by (apply Hh; now left); exact C.
    + change (in_hand m s') with (in_hand m s). change (mbox m s') with (mbox m s ++ [sp]). rewrite app_assoc, (contents_app s' _ [sp]).
      rewrite (Cs _ Nu). f_equal. cbn. now rewrite nth_upd_same by lia.
Qed.

Lemma step_ok s e : inv s -> exists s' o, step m s e = OK (s', o) /\ inv s' /\ sens m s' = fst (sense m (sens m s) e) /\
  cont s (in_hand m s ++ mbox m s) ++ map Some (match snd (sense m (sens m s) e) with Some g => if in_use m s <? 14 then [g] else [] | None => [] end)
  = map Some (opt o) ++ cont s' (in_hand m s' ++ mbox m s').
Proof.
  intro I. destruct e as [ts|ts pin|].
  - eexists _, None. split; [reflexivity|]. destruct I. split; [constructor; auto|]. split; [reflexivity|]. cbn. now rewrite app_nil_r.
  - cbn [step sense]. destruct (light m (sens m s) ts pin) as [x [g|]] eqn:Li; cbn [snd fst].
    + assert (I' : inv (with_sens m s x)) by (destruct I; constructor; auto).
      destruct (publish_ok (with_sens m s x) g I') as (s' & E & Hs & Se & Q). rewrite E. cbn [rbind].
      exists s', None. split; [reflexivity|]. split; [exact Hs|]. split; [exact Se|]. exact Q.
    + eexists _, None. split; [reflexivity|]. destruct I. split; [constructor; auto|]. split; [reflexivity|]. cbn. now rewrite app_nil_r.
  - cbn [step sense snd fst map]. rewrite app_nil_r. destruct I as [P L Fu C]. destruct (perm_facts _ _ _ P) as (Nd & Le & Lt).
    unfold reader_step. unfold held, in_hand, copied in *. destruct (rdr m s) as [|sp|sp a|sp a l|sp] eqn:R.
    + destruct (mbox m s) as [|sp mb] eqn:B.
      * exists s, None. split; [reflexivity|]. split; [constructor; unfold held, in_hand, copied; rewrite ?R, ?B; auto|]. split; [reflexivity|].
        now rewrite R, B.
      * eexists _, None. split; [reflexivity|]. split; [constructor; cbn; auto|]. split; [reflexivity|]. reflexivity.
    + cbn [app] in Fu. inversion Fu as [|? ? H1 H2]. subst. destruct (read_full s sp H1) as (g & -> & G). cbn [rbind].
      eexists _, None. split; [reflexivity|]. split; [constructor; cbn; auto|]. { exists g; auto. } split; reflexivity.
    + cbn [app] in Fu. inversion Fu as [|? ? H1 H2]. subst. destruct (read_full s sp H1) as (g & -> & G). cbn [rbind].
      eexists _, None. split; [reflexivity|]. split; [constructor; cbn; auto|].
      { destruct C as (g' & G' & ->). rewrite G in G'. injection G' as <-. rewrite G. now destruct g. } split; reflexivity.
    + cbn [app] in Fu. inversion Fu as [|? ? H1 H2]. subst.
      eexists _, _. split; [reflexivity|]. split; [constructor; cbn; auto|]. split; [reflexivity|]. cbn. now rewrite C.
    + assert (Hsp : sp < 14).
      { rewrite Forall_forall in Lt. apply Lt. apply in_or_app. right. now left. }
      rewrite put_ok by lia. cbn [rbind]. eexists _, None. split; [reflexivity|].
      assert (Nu : ~ In sp (mbox m s)).
      { apply nodup_r in Nd. now inversion Nd. }
      split; [|split; [reflexivity|]].
      * constructor; cbn; [|now rewrite upd_length| |exact I].
        -- rewrite <- P. cbn. apply Permutation_middle.
        -- cbn [app] in Fu. apply Forall_forall. intros x Ix. rewrite nth_upd_other by (intros ->; auto). rewrite Forall_forall in Fu. auto.
      * cbn [app opt map]. symmetry. eapply contents_upd; [|reflexivity|reflexivity]. exact Nu.
Qed.

Lemma run_ok es : forall s, inv s -> exists s' out, run m s es = OK (s', out) /\ inv s' /\
  cont s (in_hand m s ++ mbox m s) ++ map Some (accepted m s es) = map Some out ++ cont s' (in_hand m s' ++ mbox m s').
Proof.
  induction es as [|e es IH]; intros s I.
  - exists s, []. split; [reflexivity|]. split; [exact I|]. cbn. now rewrite app_nil_r.
  - destruct (step_ok s e I) as (s1 & o & E & I1 & _ & Q1). destruct (IH s1 I1) as (s2 & out & E2 & I2 & Q2).
    cbn [run accepted]. rewrite E. cbn [rbind]. rewrite E2. cbn [rbind].
    exists s2, (match o with Some g => g :: out | None => out end). split; [reflexivity|]. split; [exact I2|].
    rewrite map_app, app_assoc, Q1, <- app_assoc, Q2. destruct o; reflexivity.
Qed.
Lemma init_inv : inv (init m).
Proof.
  constructor; [|reflexivity|constructor|exact I].
  change (Permutation (rev (seq 0 14) ++ []) (seq 0 14)). rewrite app_nil_r. symmetry. apply Permutation_rev.
Qed.
End Pool.
