(** Pickling several structure objects together (C80). *)
From Verif Require Import PyBase IndexModel DMModel StructModel StructSpec PowerModel PowerSpec EntryModel EntrySpec StructsModel PickleModel
  StructsThms5 LayoutProofs StructsThms10 PickleSpec.
Open Scope nat_scope.

Section P.
Context {T : Type} (zero : T).
Notation heap := (heap T).
Notation pobj := (pobj T).

Definition reachb (h : heap) (s i : nat) : bool := (s =? i) || existsb (Nat.eqb i) (sd_reach (h s)).
Lemma reachb_iff h o i : reachb h (po_sid o) i = true <-> Reaches h o i.
Proof.
  unfold reachb, Reaches. rewrite Bool.orb_true_iff, Nat.eqb_eq, existsb_exists. split.
  - intros [->|(x & Hx & E)]; [now left|]. apply Nat.eqb_eq in E. subst. now right.
  - intros [->|H]; [now left|]. right. exists i. split; [exact H|apply Nat.eqb_refl].
Qed.

Lemma memo_get_app (m : memo (T := T)) i j d : memo_get (m ++ [(j, d)]) i = match memo_get m i with Some x => Some x | None => if j =? i then Some d else None end.
Proof.
  unfold memo_get. induction m as [|[k x] m IH]; simpl; [destruct (j =? i); reflexivity|].
  destruct (k =? i); [reflexivity|]. exact IH.
Qed.
Lemma memo_get_write1 h (m : memo (T := T)) i j :
  memo_get (write1 h m j) i = match memo_get m i with Some x => Some x | None => if j =? i then Some (h i) else None end.
Proof.
  unfold write1. destruct (memo_get m j) as [d|] eqn:E.
  - destruct (memo_get m i) eqn:E'; [reflexivity|]. destruct (Nat.eqb_spec j i); [congruence|reflexivity].
  - rewrite memo_get_app. destruct (memo_get m i); [reflexivity|]. destruct (Nat.eqb_spec j i); [subst; reflexivity|reflexivity].
Qed.
Lemma memo_get_writes h js i : forall m : memo (T := T),
  memo_get (fold_left (write1 h) js m) i = match memo_get m i with Some x => Some x | None => if existsb (Nat.eqb i) js then Some (h i) else None end.
Proof.
  induction js as [|j js IH]; intros m; simpl; [destruct (memo_get m i); reflexivity|].
  rewrite IH, memo_get_write1. destruct (memo_get m i); [reflexivity|]. rewrite (Nat.eqb_sym i j). destruct (j =? i); reflexivity.
Qed.
Definition MClosed (h : heap) (m : memo (T := T)) : Prop :=
  forall i d, memo_get m i = Some d -> forall k, In k (sd_reach (h i)) -> memo_get m k <> None.
Lemma memo_get_write h (m : memo (T := T)) s i : MClosed h m ->
  memo_get (write h m s) i = match memo_get m i with Some x => Some x | None => if reachb h s i then Some (h i) else None end.
Proof.
  intros Hc. unfold write, reachb. destruct (memo_get m s) as [d|] eqn:Es.
  - destruct (memo_get m i) eqn:Ei; [reflexivity|]. destruct (Nat.eqb_spec s i); [congruence|]. simpl.
    destruct (existsb (Nat.eqb i) (sd_reach (h s))) eqn:E; [|reflexivity]. apply existsb_exists in E. destruct E as (x & Hx & E).
    apply Nat.eqb_eq in E. subst x. elim (Hc s d Es i Hx Ei).
  - rewrite memo_get_writes, memo_get_app. destruct (memo_get m i); [reflexivity|]. destruct (Nat.eqb_spec s i); [subst; reflexivity|reflexivity].
Qed.
Lemma write_closed h (m : memo (T := T)) s : Closed h -> MClosed h m -> MClosed h (write h m s).
Proof.
  intros Hh Hc i d Hi k Hk. rewrite memo_get_write in Hi |- * by exact Hc.
  destruct (memo_get m k) eqn:Ek; [discriminate|]. destruct (memo_get m i) eqn:Ei; [elim (Hc _ _ Ei k Hk Ek)|].
  destruct (reachb h s i) eqn:E; [|discriminate]. assert (R : reachb h s k = true); [|rewrite R; discriminate].
  unfold reachb in *. apply Bool.orb_true_iff in E. destruct E as [E|E].
  - apply Nat.eqb_eq in E. subst i. apply Bool.orb_true_iff. right. apply existsb_exists. exists k. split; [exact Hk|apply Nat.eqb_refl].
  - apply existsb_exists in E. destruct E as (x & Hx & E). apply Nat.eqb_eq in E. subst x.
    apply Bool.orb_true_iff. right. apply existsb_exists. exists k. split; [eapply Hh; eauto|apply Nat.eqb_refl].
Qed.

Lemma mark_reach (o : pobj) (d : sdict T) : sd_reach (mark o d) = sd_reach d /\ sd_struct (mark o d) = sd_struct d.
Proof. unfold mark. destruct (po_kind o); split; reflexivity. Qed.
Lemma getstate_reach (h : heap) (o : pobj) i : sd_reach (getstate h o i) = sd_reach (h i).
Proof. unfold getstate. destruct (i =? po_sid o); [apply mark_reach|reflexivity]. Qed.
Lemma getstate_closed (h : heap) (o : pobj) : Closed h -> Closed (getstate h o).
Proof. intros H i j k. rewrite !getstate_reach. apply H. Qed.
Lemma getstate_mclosed (h : heap) (o : pobj) m : MClosed h m -> MClosed (getstate h o) m.
Proof. intros H i d Hi k. rewrite getstate_reach. eapply H; eauto. Qed.
Lemma getstate_reachb (h : heap) (o : pobj) s i : reachb (getstate h o) s i = reachb h s i.
Proof. unfold reachb. rewrite getstate_reach. reflexivity. Qed.

(** The state seen when an object with structure [i] is restored. *)
Definition seen (h : heap) (os : list pobj) (i : nat) : option (sdict T) :=
  match find (fun o => reachb h (po_sid o) i) os with
  | Some o => Some (if i =? po_sid o then mark o (h i) else h i)
  | None => None
  end.
Lemma dump_memo os : forall h m i, Closed h -> MClosed h m ->
  memo_get (snd (dump_from h m os)) i = match memo_get m i with Some d => Some d | None => seen h os i end.
Proof.
  induction os as [|o os IH]; intros h m i Hh Hc; [cbn; destruct (memo_get m i); reflexivity|].
  cbn [dump_from]. set (h' := getstate h o). assert (Hh' : Closed h') by now apply getstate_closed.
  assert (Hc' : MClosed h' m) by now apply getstate_mclosed.
  rewrite IH; [|exact Hh'|now apply write_closed]. rewrite memo_get_write by exact Hc'.
  destruct (memo_get m i); [reflexivity|]. unfold h' at 1. rewrite getstate_reachb. unfold seen. cbn [find].
  destruct (reachb h (po_sid o) i) eqn:E; [reflexivity|].
  assert (Ef : find (fun o0 => reachb h' (po_sid o0) i) os = find (fun o0 => reachb h (po_sid o0) i) os).
  { clear. induction os as [|a os IH]; [reflexivity|]. cbn [find]. unfold h' at 1. rewrite getstate_reachb, IH. reflexivity. }
  rewrite Ef. assert (Ei : h' i = h i).
  { unfold h', getstate. destruct (Nat.eqb_spec i (po_sid o)); [|reflexivity]. subst i. unfold reachb in E. rewrite Nat.eqb_refl in E. discriminate. }
  rewrite Ei. reflexivity.
Qed.
Lemma rmapM_ext {A B} (f g : A -> res B) l : (forall x, In x l -> f x = g x) -> rmapM f l = rmapM g l.
Proof. induction l as [|a l IH]; intros H; [reflexivity|]. simpl. rewrite H, IH; [reflexivity| |now left]. intros; apply H; now right. Qed.
Lemma rmapM_map {A B C} (f : B -> res C) (g : A -> B) l : rmapM f (map g l) = rmapM (fun x => f (g x)) l.
Proof. induction l as [|a l IH]; [reflexivity|]. simpl. rewrite IH. reflexivity. Qed.
Lemma find_some_in (h : heap) (os : list pobj) o : In o os -> exists o1, find (fun o' => reachb h (po_sid o') (po_sid o)) os = Some o1.
Proof.
  intros H. destruct (find _ os) eqn:E; [eauto|]. eapply find_none in E; [|exact H].
  unfold reachb in E. rewrite Nat.eqb_refl in E. discriminate.
Qed.
Lemma find_first (h : heap) i (os : list pobj) o1 : find (fun o' => reachb h (po_sid o') i) os = Some o1 <-> FirstOn h os i o1.
Proof.
  split.
  - induction os as [|a os IH]; [discriminate|]. cbn [find]. destruct (reachb h (po_sid a) i) eqn:E.
    + intros [= <-]. exists [], os. split; [reflexivity|]. split; [now apply reachb_iff|intros ? []].
    + intros H. destruct (IH H) as (pre & post & -> & R & N). exists (a :: pre), post. split; [reflexivity|]. split; [exact R|].
      intros o' [<-|Hin]; [|now apply N]. rewrite <- reachb_iff. congruence.
  - intros (pre & post & -> & R & N). induction pre as [|a pre IH]; cbn [app find].
    + apply reachb_iff in R. rewrite R. reflexivity.
    + destruct (reachb h (po_sid a) i) eqn:E; [elim (N a (or_introl eq_refl)); now apply reachb_iff|]. apply IH. intros o' H. apply N. now right.
Qed.

(** Every object is restored from the state of the first object on its structure. *)
Definition seen_state (h : heap) (o1 : pobj) (i : nat) : sdict T := if i =? po_sid o1 then mark o1 (h i) else h i.
Lemma roundtrip_seen (h : heap) (os : list pobj) : Closed h ->
  roundtrip h os = rmapM (fun o => match find (fun o' => reachb h (po_sid o') (po_sid o)) os with
    | Some o1 => setstate (po_kind o) (seen_state h o1 (po_sid o)) | None => Err EKey end) os.
Proof.
  intros Hc. unfold roundtrip, dump. destruct (dump_from h [] os) as [h' m] eqn:E. cbn [snd fst]. unfold load. cbn [fst snd].
  rewrite rmapM_map. apply rmapM_ext. intros o _. cbn [fst snd].
  pose proof (dump_memo os h [] (po_sid o) Hc) as H. rewrite E in H. cbn [snd] in H. rewrite H; [|discriminate]. cbn.
  unfold seen. destruct (find _ os); reflexivity.
Qed.

Lemma rmapM_ok {A B} (f : A -> res B) l bs : rmapM f l = Ok bs <-> Forall2 (fun a b => f a = Ok b) l bs.
Proof.
  split.
  - revert bs. induction l as [|a l IH]; intros bs; simpl; [intros [= <-]; constructor|].
    destruct (f a) eqn:E; [|discriminate]. cbn. destruct (rmapM f l); [|discriminate]. cbn. intros [= <-]. constructor; auto.
  - induction 1 as [|a b l bs E F IH]; [reflexivity|]. simpl. rewrite E, IH. reflexivity.
Qed.
Lemma rmapM_all {A B} (f : A -> res B) (R : A -> B -> Prop) l : (forall a, In a l -> exists b, f a = Ok b /\ R a b) ->
  exists bs, rmapM f l = Ok bs /\ Forall2 R l bs.
Proof.
  induction l as [|a l IH]; intros H; [exists []; split; [reflexivity|constructor]|].
  destruct (H a (or_introl eq_refl)) as (b & Eb & Rb). destruct IH as (bs & Ebs & Rbs); [intros; apply H; now right|].
  exists (b :: bs). simpl. rewrite Eb, Ebs. split; [reflexivity|now constructor].
Qed.
Lemma rmapM_err {A B} (f : A -> res B) l a e : In a l -> f a = Err e -> exists e', rmapM f l = Err e'.
Proof.
  induction l as [|b l IH]; intros H E; [destruct H|]. simpl. destruct (f b) eqn:Eb; [|cbn; eauto].
  destruct H as [->|H]; [congruence|]. destruct (IH H E) as (e' & ->). cbn. eauto.
Qed.

Lemma seen_fields (h : heap) (o1 : pobj) i : sd_struct (seen_state h o1 i) = sd_struct (h i) /\
  sd_order (seen_state h o1 i) = (if i =? po_sid o1 then match po_kind o1 with OCas | ONum => sd_order (h i) | _ => true end else sd_order (h i)) /\
  sd_master (seen_state h o1 i) = (if i =? po_sid o1 then match po_kind o1 with ONum => Some (po_data o1) | _ => sd_master (h i) end else sd_master (h i)).
Proof. unfold seen_state, mark. destruct (i =? po_sid o1); [|repeat split]. destruct (po_kind o1); repeat split. Qed.

Lemma unpickle_ok (h : heap) (o : pobj) c : Wf (sd_struct (h (po_sid o))) -> casadi_structure (sd_struct (h (po_sid o))) = Ok c ->
  exists c', unpickle (sd_struct (h (po_sid o))) = Ok c' /\ cs_size c' = cs_size c /\ SameLayout zero (sd_struct (h (po_sid o))) c'.
Proof.
  intros Hw Hc. destruct (unpickle_layout zero _ c Hw Hc) as (c' & Hu & Hs & Hr). exists c'. split; [exact Hu|]. split; [exact Hs|].
  exists c. split; [exact Hc|]. split; [exact Hs|exact Hr].
Qed.
Lemma unpickle_num (s : structure) c v c' : Wf s -> casadi_structure s = Ok c -> length v = cs_size c -> unpickle s = Ok c' -> SameLayout zero s c' ->
  NumWith zero s v (SObj c' (Env (cs_map c') [] KPlain []) (PState v [] [])).
Proof.
  intros Hw Hc Hl Hu HL. destruct (unpickle_object zero s c v Hw Hc Hl) as (o' & Ho & Hcat & Hg & _).
  assert (Ec : cs_struct c = s). { destruct (LayoutProofs.casadi_structure_ok s Hw) as (c0 & E0 & H0 & _). congruence. }
  unfold unpickle_obj in Ho. cbn [plain_obj so_c] in Ho. rewrite Ec, Hu in Ho. cbn [rbind] in Ho.
  destruct (negb _) eqn:En in Ho; [discriminate|]. injection Ho as <-. exists c. split; [exact Hc|]. split; [reflexivity|]. split; [exact HL|]. exact Hg.
Qed.

(** One object restored from the state left by [o1]. *)
Lemma setstate_ok (h : heap) (o1 o : pobj) : GoodObj h o -> Provides o1 o -> (po_kind o = ONum -> length (po_data o1) = length (po_data o)) ->
  exists l, setstate (po_kind o) (seen_state h o1 (po_sid o)) = Ok l /\ RestoredWith zero h o (po_data o1) l.
Proof.
  intros (c & Hw & Hc & Hl) Hp Hd. destruct (unpickle_ok h o c Hw Hc) as (c' & Hu & Hs & HL).
  destruct (seen_fields h o1 (po_sid o)) as (E1 & E2 & E3). unfold setstate. rewrite E1, Hu. cbn [rbind].
  unfold Provides in Hp. unfold RestoredWith. destruct (po_kind o) eqn:Ek.
  - eexists. split; [reflexivity|]. split; [reflexivity|]. split; [discriminate|exact HL].
  - destruct Hp as [Es Hk]. rewrite E2, Es, Nat.eqb_refl. destruct Hk as [->|[->| ->]]; (eexists; split; [reflexivity|]; split; [reflexivity|]; split; [discriminate|exact HL]).
  - destruct Hp as [Es Hk]. rewrite E3, Es, Nat.eqb_refl, Hk. rewrite Hs, Hd, Hl, Nat.eqb_refl by reflexivity. cbn [negb].
    eexists. split; [reflexivity|]. split; [reflexivity|]. eapply unpickle_num; eauto. rewrite Hd by reflexivity. auto.
  - destruct Hp.
  - destruct Hp as [Es Hk]. rewrite E2, Es, Nat.eqb_refl. destruct Hk as [->|[->| ->]]; (eexists; split; [reflexivity|]; split; [reflexivity|]; split; [discriminate|exact HL]).
Qed.
Lemma setstate_err (h : heap) (o1 o : pobj) : Fresh h -> ~ Provides o1 o -> exists e, setstate (po_kind o) (seen_state h o1 (po_sid o)) = Err e.
Proof.
  intros Hf Hp. destruct (Hf (po_sid o)) as [F1 F2]. destruct (seen_fields h o1 (po_sid o)) as (E1 & E2 & E3).
  unfold setstate. destruct (unpickle _); [|eexists; reflexivity]. cbn [rbind]. rewrite E2, E3, F1, F2. clear E1 E2 E3.
  unfold Provides in Hp. destruct (po_kind o); [now elim Hp| | | |];
  destruct (Nat.eqb_spec (po_sid o) (po_sid o1)) as [Es|Es]; destruct (po_kind o1); cbn; try (eexists; reflexivity);
  elim Hp; (split; [congruence|auto]).
Qed.

(** ** C80 *)
Theorem separate_restored (h : heap) (os : list pobj) : Closed h -> Separate h os -> (forall o, In o os -> GoodObj h o /\ po_kind o <> OMut) ->
  exists ls, roundtrip h os = Ok ls /\ Forall2 (Restored zero h) os ls.
Proof.
  intros Hc Hs Hg. rewrite roundtrip_seen by exact Hc. apply rmapM_all. intros o Ho.
  assert (E : find (fun o' => reachb h (po_sid o') (po_sid o)) os = Some o).
  { apply in_split in Ho. destruct Ho as (pre & post & ->). apply find_first. exists pre, post. split; [reflexivity|].
    split; [now left|]. intros o' Hin. eapply Hs; eauto. }
  rewrite E. destruct (Hg o Ho) as [Hgo Hk]. apply setstate_ok; [exact Hgo| |reflexivity].
  unfold Provides. destruct (po_kind o) eqn:Ek; auto 10.
Qed.
Theorem together_exact (h : heap) (os : list pobj) : Closed h -> Fresh h -> (forall o, In o os -> GoodObj h o) ->
  ((forall o o1, In o os -> FirstOn h os (po_sid o) o1 -> Provides o1 o) ->
     exists ls, roundtrip h os = Ok ls /\
       Forall2 (fun o l => exists o1, FirstOn h os (po_sid o) o1 /\ RestoredWith zero h o (po_data o1) l) os ls) /\
  (forall o o1, In o os -> FirstOn h os (po_sid o) o1 -> ~ Provides o1 o -> exists e, roundtrip h os = Err e).
Proof.
  intros Hc Hf Hg. rewrite roundtrip_seen by exact Hc. split.
  - intros H. apply rmapM_all. intros o Ho. destruct (find_some_in h os o Ho) as (o1 & E). rewrite E.
    assert (F : FirstOn h os (po_sid o) o1) by now apply find_first.
    pose proof (H o o1 Ho F) as Hp. destruct (setstate_ok h o1 o (Hg o Ho) Hp) as (l & El & Rl); [|exists l; split; [exact El|exists o1; auto]].
    intros Ek. unfold Provides in Hp. rewrite Ek in Hp. destruct Hp as [Es Hk].
    assert (Hin : In o1 os) by (destruct F as (pre & post & -> & _); apply in_or_app; right; now left).
    destruct (Hg o Ho) as (c & _ & Hc1 & Hl). destruct (Hg o1 Hin) as (c1 & _ & Hc2 & Hl1). rewrite Hl1, Hl by assumption. rewrite Es in Hc2. congruence.
  - intros o o1 Ho F Hp. destruct (setstate_err h o1 o Hf Hp) as (e & He).
    eapply (rmapM_err _ os o e Ho). apply find_first in F. rewrite F. exact He.
Qed.
Theorem same_structure_first (h : heap) o1 (os : list pobj) : Closed h -> GoodObj h o1 -> po_kind o1 = ONum ->
  (forall o, In o os -> po_kind o = ONum /\ po_sid o = po_sid o1) ->
  exists l, roundtrip h (o1 :: os) = Ok (repeat l (S (length os))) /\ RestoredWith zero h o1 (po_data o1) l.
Proof.
  intros Hc Hg Hk Hos. rewrite roundtrip_seen by exact Hc.
  destruct (setstate_ok h o1 o1 Hg) as (l & El & Rl); [unfold Provides; rewrite Hk; auto|reflexivity|].
  exists l. split; [|exact Rl]. apply rmapM_ok. cbn [repeat].
  assert (G : forall o : pobj, po_kind o = ONum -> po_sid o = po_sid o1 ->
    match find (fun o' => reachb h (po_sid o') (po_sid o)) (o1 :: os) with Some o2 => setstate (po_kind o) (seen_state h o2 (po_sid o)) | None => Err EKey end = Ok l).
  { intros o Ek Es. rewrite Es, Ek. cbn [find]. unfold reachb at 1. rewrite Nat.eqb_refl. cbn [orb]. rewrite <- Hk. exact El. }
  constructor; [apply G; auto|]. revert Hos G. generalize (o1 :: os) as all. intros all. induction os as [|o os IH]; intros Hos G; [constructor|].
  cbn [length repeat]. constructor; [apply G; apply Hos; now left|]. apply IH; [intros; apply Hos; now right|exact G].
Qed.
Theorem mutable_never (h : heap) (os : list pobj) (o : pobj) : Closed h -> In o os -> po_kind o = OMut -> exists e, roundtrip h os = Err e.
Proof.
  intros Hc Ho Hk. rewrite roundtrip_seen by exact Hc. destruct (find_some_in h os o Ho) as (o1 & E).
  assert (He : exists e, setstate (po_kind o) (seen_state h o1 (po_sid o)) = Err e).
  { rewrite Hk. unfold setstate. destruct (unpickle _); [|eexists; reflexivity]. cbn [rbind]. destruct (sd_order _); eexists; reflexivity. }
  destruct He as (e & He). eapply (rmapM_err _ os o e Ho). rewrite E. exact He.
Qed.
Theorem mutable_alone (h : heap) (o : pobj) : Closed h -> GoodObj h o -> po_kind o = OMut -> roundtrip h [o] = Err EType.
Proof.
  intros Hc (c & Hw & Hcs & _) Hk. rewrite roundtrip_seen by exact Hc. cbn [rmapM find]. unfold reachb at 1. rewrite Nat.eqb_refl. cbn [orb].
  destruct (unpickle_ok h o c Hw Hcs) as (c' & Hu & _). destruct (seen_fields h o (po_sid o)) as (E1 & E2 & _).
  rewrite Hk. unfold setstate. rewrite E1, Hu. cbn [rbind]. rewrite E2, Nat.eqb_refl, Hk. reflexivity.
Qed.
End P.
