(** Facts about the matrix operations of [DMModel]. *)
From Coq Require Import Sorted.
From Verif Require Import PyBase DMModel StructModel StructSpec IndexProofs StructProofs LayoutProofs LayoutThms.

(** Values read at a position: the structural nonzero, or zero. *)
Definition dm_val {A} (zero : A) (d : dm A) (p : nat * nat) : A :=
  match dm_at d p with Some v => v | None => zero end.

(** Proper matrices: positions sorted and within the shape, one value each. *)
Definition DmOk {A} (d : dm A) : Prop := SpOk (dm_sp d) /\ length (dm_nz d) = sp_nnz (dm_sp d).

(** Elementwise map. *)
Definition dm_map {A B} (f : A -> B) (d : dm A) : dm B := DM (dm_sp d) (map f (dm_nz d)).

Lemma pos_eqb_eq p q : pos_eqb p q = true <-> p = q.
Proof.
  destruct p as [a b], q as [c d]. unfold pos_eqb. simpl. rewrite andb_true_iff, !Nat.eqb_eq.
  split; [intros []; congruence|intros [= -> ->]; auto].
Qed.
Lemma pos_eqb_refl p : pos_eqb p p = true.
Proof. now apply pos_eqb_eq. Qed.
Lemma pos_eqb_neq p q : p <> q -> pos_eqb p q = false.
Proof. intros H. destruct (pos_eqb p q) eqn:E; [|reflexivity]. apply pos_eqb_eq in E. contradiction. Qed.

Lemma pos_mem_In p l : pos_mem p l = true <-> In p l.
Proof.
  unfold pos_mem. rewrite existsb_exists. split.
  - intros (x & Hx & E). apply pos_eqb_eq in E. now subst.
  - intros H. exists p. split; [exact H|apply pos_eqb_refl].
Qed.

Lemma pat_eqb_eq a : forall b, pat_eqb a b = true <-> a = b.
Proof.
  induction a as [|p a IH]; intros [|q b]; simpl; try (split; congruence).
  rewrite andb_true_iff, pos_eqb_eq, IH. split; [intros []; congruence|intros [= -> ->]; auto].
Qed.
Lemma spy_eqb_eq a b : spy_eqb a b = true <-> a = b.
Proof.
  destruct a as [r c p], b as [r' c' p']. unfold spy_eqb. simpl.
  rewrite !andb_true_iff, !Nat.eqb_eq, pat_eqb_eq.
  split; [intros [[]]; congruence|intros [= -> -> ->]; auto].
Qed.
Lemma spy_eqb_refl a : spy_eqb a a = true.
Proof. now apply spy_eqb_eq. Qed.

Section Assoc.
Context {A : Type}.

Lemma pos_assoc_map {B} (f : A -> B) p ps : forall vs,
  pos_assoc p ps (map f vs) = option_map f (pos_assoc p ps vs).
Proof.
  induction ps as [|q ps IH]; intros [|v vs]; simpl; try reflexivity.
  destruct (pos_eqb p q); [reflexivity|apply IH].
Qed.

Lemma pos_assoc_nth ps : forall (vs : list A) i p, NoDup ps -> length vs = length ps ->
  nth_error ps i = Some p -> pos_assoc p ps vs = nth_error vs i.
Proof.
  induction ps as [|q ps IH]; intros vs i p Hnd Hl Hi; [destruct i; discriminate|].
  destruct vs as [|v vs]; [discriminate|]. apply NoDup_cons_iff in Hnd as [Hq Hnd].
  destruct i as [|i]; simpl in *.
  - injection Hi as ->. now rewrite pos_eqb_refl.
  - rewrite pos_eqb_neq; [apply IH; auto|]. intros ->. apply Hq. eapply nth_error_In; eauto.
Qed.

Lemma pos_assoc_None ps (vs : list A) p : ~ In p ps -> pos_assoc p ps vs = None.
Proof.
  revert vs. induction ps as [|q ps IH]; intros [|v vs] H; simpl; try reflexivity.
  rewrite pos_eqb_neq; [apply IH; simpl in H; tauto|]. intros ->. simpl in H. tauto.
Qed.

Lemma pos_assoc_In ps : forall (vs : list A) p v, pos_assoc p ps vs = Some v -> In p ps.
Proof.
  induction ps as [|q ps IH]; intros [|w vs] p v; simpl; try discriminate.
  destruct (pos_eqb p q) eqn:E; [apply pos_eqb_eq in E; auto|]. intros H. right. eapply IH; eauto.
Qed.

Lemma pos_assoc_fun (f : nat * nat -> A) ps p : pos_assoc p ps (map f ps) = if pos_mem p ps then Some (f p) else None.
Proof.
  induction ps as [|q ps IH]; [reflexivity|]. simpl. change (pos_mem p (q :: ps)) with (pos_eqb p q || pos_mem p ps).
  destruct (pos_eqb p q) eqn:E; simpl; [apply pos_eqb_eq in E; now subst|exact IH].
Qed.

(** A value list is determined by the association. *)
Lemma assoc_values ps (vs : list A) : NoDup ps -> length vs = length ps ->
  map Some vs = map (fun p => pos_assoc p ps vs) ps.
Proof.
  revert vs. induction ps as [|q ps IH]; intros [|v vs] Hnd Hl; try discriminate; [reflexivity|].
  apply NoDup_cons_iff in Hnd as [Hq Hnd]. simpl. rewrite pos_eqb_refl. f_equal.
  rewrite (IH vs) by (simpl in Hl; auto; lia). apply map_ext_in. intros p Hp.
  rewrite pos_eqb_neq; [reflexivity|]. intros ->. contradiction.
Qed.

Lemma map_Some_inj (a b : list A) : map Some a = map Some b -> a = b.
Proof. revert b. induction a as [|x a IH]; intros [|y b]; simpl; try discriminate; [reflexivity|]. intros [= -> H]. f_equal; auto. Qed.
End Assoc.

Lemma in_all_pos r c p : In p (all_pos r c) <-> fst p < r /\ snd p < c.
Proof.
  unfold all_pos. rewrite in_flat_map. split.
  - intros (j & Hj & H). apply in_map_iff in H as (i & <- & Hi). apply in_seq in Hi, Hj. simpl. lia.
  - intros [H1 H2]. exists (snd p). split; [apply in_seq; lia|]. apply in_map_iff. exists (fst p).
    split; [now destruct p|apply in_seq; lia].
Qed.

Lemma SSorted_app {A} (R : A -> A -> Prop) l l' : StronglySorted R l -> StronglySorted R l' ->
  (forall a b, In a l -> In b l' -> R a b) -> StronglySorted R (l ++ l').
Proof.
  intros Hl Hl' H. induction Hl as [|a l Hs IH Hf]; [exact Hl'|]. simpl. constructor.
  - apply IH. intros x y Hx. apply H. now right.
  - apply Forall_app. split; [exact Hf|]. apply Forall_forall. intros b Hb. apply H; simpl; auto.
Qed.

Lemma sorted_all_pos r c : StronglySorted pos_lt (all_pos r c).
Proof.
  unfold all_pos. assert (G : forall n k, StronglySorted pos_lt (flat_map (fun j => map (fun i => (i, j)) (seq 0 r)) (seq k n))).
  { induction n as [|n IH]; intros k; [constructor|]. simpl. apply SSorted_app; [|apply IH|].
    - assert (G2 : forall m q, StronglySorted pos_lt (map (fun i => (i, k)) (seq q m))).
      { induction m as [|m IHm]; intros q; [constructor|]. simpl. constructor; [apply IHm|].
        apply Forall_forall. intros p Hp. apply in_map_iff in Hp as (i & <- & Hi). apply in_seq in Hi.
        right. simpl. lia. }
      apply G2.
    - intros a b Ha Hb. apply in_map_iff in Ha as (i & <- & Hi). apply in_flat_map in Hb as (j & Hj & Hb).
      apply in_map_iff in Hb as (i' & <- & Hi'). apply in_seq in Hj. left. simpl. lia. }
  apply G.
Qed.

Lemma StronglySorted_filter {A} (R : A -> A -> Prop) f l : StronglySorted R l -> StronglySorted R (filter f l).
Proof.
  induction 1 as [|a l Hs IH Hf]; [constructor|]. simpl. destruct (f a); [|exact IH]. constructor; [exact IH|].
  apply Forall_forall. intros x Hx. apply filter_In in Hx as [Hx _]. rewrite Forall_forall in Hf. auto.
Qed.

Lemma SpOk_dense r c : SpOk (sp_dense r c).
Proof.
  split; [apply sorted_all_pos|]. apply Forall_forall. intros p Hp. now apply in_all_pos in Hp.
Qed.

Lemma SpOk_upper n : SpOk (sp_upper n).
Proof.
  split; [apply StronglySorted_filter, sorted_all_pos|]. apply Forall_forall. intros p Hp. simpl in Hp.
  apply filter_In in Hp as [Hp _]. now apply in_all_pos in Hp.
Qed.

Lemma NoDup_all_pos r c : NoDup (all_pos r c).
Proof. apply (SpOk_NoDup (sp_dense r c)), SpOk_dense. Qed.

Lemma all_pos_length r c : length (all_pos r c) = r * c.
Proof.
  unfold all_pos. rewrite (flat_map_length_const _ r); [rewrite seq_length; lia|].
  intros j _. now rewrite map_length, seq_length.
Qed.

(** Patterns with the same members are equal. *)
Lemma pos_lt_irrefl p : ~ pos_lt p p.
Proof. unfold pos_lt. lia. Qed.
Lemma pos_lt_asym p q : pos_lt p q -> pos_lt q p -> False.
Proof. unfold pos_lt. lia. Qed.
Lemma sorted_ext l : forall l', StronglySorted pos_lt l -> StronglySorted pos_lt l' ->
  (forall p, In p l <-> In p l') -> l = l'.
Proof.
  induction l as [|p l IH]; intros [|q l'] H H' Hi.
  - reflexivity.
  - exfalso. apply (proj2 (Hi q)). now left.
  - exfalso. apply (proj1 (Hi p)). now left.
  - apply StronglySorted_inv in H as [Hs Hf]. apply StronglySorted_inv in H' as [Hs' Hf'].
    rewrite Forall_forall in Hf, Hf'.
    assert (E : p = q).
    { destruct (proj1 (Hi p) (or_introl eq_refl)) as [E|E]; [auto|].
      destruct (proj2 (Hi q) (or_introl eq_refl)) as [E'|E']; [auto|].
      exfalso. apply (pos_lt_asym p q); auto. }
    subst q. f_equal. apply IH; auto. intros x. specialize (Hi x). simpl in Hi. split; intros Hx.
    + destruct (proj1 Hi (or_intror Hx)) as [E|E]; [|exact E]. subst x. exfalso. now apply (pos_lt_irrefl p), Hf.
    + destruct (proj2 Hi (or_intror Hx)) as [E|E]; [|exact E]. subst x. exfalso. now apply (pos_lt_irrefl p), Hf'.
Qed.

Section Build.
Context {A : Type}.
Implicit Type f : nat * nat -> option A.

Definition issome (o : option A) : bool := match o with Some _ => true | None => false end.

Lemma build_pat f l :
  map fst (flat_map (fun p => match f p with Some v => [(p, v)] | None => [] end) l) = filter (fun p => issome (f p)) l.
Proof. induction l as [|p l IH]; [reflexivity|]. simpl. destruct (f p); simpl; congruence. Qed.

Lemma dm_build_pat r c f : sp_pat (dm_sp (dm_build r c f)) = filter (fun p => issome (f p)) (all_pos r c).
Proof. apply build_pat. Qed.

Lemma dm_build_ok r c f : DmOk (dm_build r c f).
Proof.
  split.
  - split; rewrite dm_build_pat.
    + apply StronglySorted_filter, sorted_all_pos.
    + apply Forall_forall. intros p Hp. apply filter_In in Hp as [Hp _]. now apply in_all_pos in Hp.
  - unfold sp_nnz, dm_build. simpl. now rewrite !map_length.
Qed.

Lemma dm_build_at r c f p : dm_at (dm_build r c f) p = if (fst p <? r) && (snd p <? c) then f p else None.
Proof.
  unfold dm_at, dm_build. simpl. 
  assert (G : forall l, pos_assoc p (map fst (flat_map (fun p => match f p with Some v => [(p, v)] | None => [] end) l))
                          (map snd (flat_map (fun p => match f p with Some v => [(p, v)] | None => [] end) l))
                        = if pos_mem p l then f p else None).
  { induction l as [|q l IH]; [reflexivity|]. change (pos_mem p (q :: l)) with (pos_eqb p q || pos_mem p l). simpl.
    destruct (f q) eqn:E; simpl.
    - destruct (pos_eqb p q) eqn:Ep; simpl; [apply pos_eqb_eq in Ep; now subst|exact IH].
    - rewrite IH. destruct (pos_eqb p q) eqn:Ep; simpl; [|reflexivity]. apply pos_eqb_eq in Ep. subst.
      rewrite E. now destruct (pos_mem q l). }
  rewrite G. destruct (pos_mem p (all_pos r c)) eqn:Em.
  - apply pos_mem_In, in_all_pos in Em as [H1 H2]. apply Nat.ltb_lt in H1, H2. now rewrite H1, H2.
  - destruct ((fst p <? r) && (snd p <? c)) eqn:E; [|reflexivity].
    apply andb_true_iff in E as [H1 H2]. apply Nat.ltb_lt in H1, H2.
    assert (pos_mem p (all_pos r c) = true) by (apply pos_mem_In, in_all_pos; auto). congruence.
Qed.

(** A proper matrix is determined by its shape and its elements. *)
Lemma dm_at_In (d : dm A) p v : dm_at d p = Some v -> In p (sp_pat (dm_sp d)).
Proof. apply pos_assoc_In. Qed.

Lemma dm_at_Some (d : dm A) p : DmOk d -> In p (sp_pat (dm_sp d)) -> exists v, dm_at d p = Some v.
Proof.
  intros [Hs Hl] Hp. apply In_nth_error in Hp as (i & Hi). unfold dm_at.
  rewrite (pos_assoc_nth _ _ i _ (SpOk_NoDup _ Hs) Hl Hi).
  destruct (nth_error (dm_nz d) i) eqn:E; [eauto|]. apply nth_error_None in E.
  apply nth_error_Some_lt_ in Hi. unfold sp_nnz in Hl. lia.
Qed.

Lemma dm_ext (d d' : dm A) : DmOk d -> DmOk d' -> dm_nr d = dm_nr d' -> dm_nc d = dm_nc d' ->
  (forall p, dm_at d p = dm_at d' p) -> d = d'.
Proof.
  intros Hd Hd' Hr Hc Ha.
  assert (Hp : sp_pat (dm_sp d) = sp_pat (dm_sp d')).
  { apply sorted_ext; [apply Hd|apply Hd'|]. intros p. split; intros H.
    - destruct (dm_at_Some d p Hd H) as (v & E). rewrite Ha in E. eapply dm_at_In; eauto.
    - destruct (dm_at_Some d' p Hd' H) as (v & E). rewrite <- Ha in E. eapply dm_at_In; eauto. }
  assert (Hn : dm_nz d = dm_nz d').
  { apply map_Some_inj. destruct Hd as [Hs Hl], Hd' as [Hs' Hl'].
    rewrite (assoc_values _ _ (SpOk_NoDup _ Hs) Hl), (assoc_values _ _ (SpOk_NoDup _ Hs') Hl').
    rewrite Hp. apply map_ext. intros p. specialize (Ha p). unfold dm_at in Ha. now rewrite Hp in Ha. }
  destruct d as [[r c p] z], d' as [[r' c' p'] z']. unfold dm_nr, dm_nc in *. simpl in *. congruence.
Qed.

Lemma dm_build_ext r c f f' : (forall p, fst p < r -> snd p < c -> f p = f' p) -> dm_build r c f = dm_build r c f'.
Proof.
  intros H. apply dm_ext; try apply dm_build_ok; try reflexivity. intros p. rewrite !dm_build_at.
  destruct (fst p <? r) eqn:E1, (snd p <? c) eqn:E2; simpl; try reflexivity.
  apply H; now apply Nat.ltb_lt.
Qed.

Lemma dm_at_bounds (d : dm A) p v : DmOk d -> dm_at d p = Some v -> fst p < dm_nr d /\ snd p < dm_nc d.
Proof.
  intros [[_ Hb] _] H. apply dm_at_In in H. rewrite Forall_forall in Hb. exact (Hb p H).
Qed.

Lemma dm_build_self (d : dm A) : DmOk d -> dm_build (dm_nr d) (dm_nc d) (dm_at d) = d.
Proof.
  intros Hd. apply dm_ext; [apply dm_build_ok|exact Hd|reflexivity|reflexivity|]. intros p. rewrite dm_build_at.
  destruct ((fst p <? dm_nr d) && (snd p <? dm_nc d)) eqn:E; [reflexivity|].
  destruct (dm_at d p) as [v|] eqn:Ev; [|reflexivity]. destruct (dm_at_bounds d p v Hd Ev) as [H1 H2].
  apply Nat.ltb_lt in H1, H2. rewrite H1, H2 in E. discriminate.
Qed.
End Build.

Lemma dm_at_map {A B} (f : A -> B) d p : dm_at (dm_map f d) p = option_map f (dm_at d p).
Proof. apply pos_assoc_map. Qed.

Lemma DmOk_map {A B} (f : A -> B) d : DmOk d -> DmOk (dm_map f d).
Proof. intros [H1 H2]. split; [exact H1|]. simpl. now rewrite map_length. Qed.

Lemma dm_map_build {A B} (f : A -> B) r c g : dm_map f (dm_build r c g) = dm_build r c (fun p => option_map f (g p)).
Proof.
  apply dm_ext; [apply DmOk_map, dm_build_ok|apply dm_build_ok|reflexivity|reflexivity|].
  intros p. rewrite dm_at_map, !dm_build_at. now destruct ((fst p <? r) && (snd p <? c)).
Qed.

Lemma dm_get2_map {A B} (f : A -> B) d a b : dm_get2 (dm_map f d) a b = rmap (dm_map f) (dm_get2 d a b).
Proof.
  unfold dm_get2. change (dm_nr (dm_map f d)) with (dm_nr d). change (dm_nc (dm_map f d)) with (dm_nc d).
  destruct (sel_resolve a (dm_nr d)) as [rr|]; simpl; [|reflexivity].
  destruct (sel_resolve b (dm_nc d)) as [cc|]; simpl; [|reflexivity].
  f_equal. unfold dm_sub. rewrite dm_map_build. apply dm_build_ext. intros p _ _. apply dm_at_map.
Qed.

Lemma dm_get1_map {A B} (f : A -> B) d a : dm_get1 (dm_map f d) a = rmap (dm_map f) (dm_get1 d a).
Proof.
  unfold dm_get1. change (dm_numel (dm_map f d)) with (dm_numel d).
  destruct (sel_resolve a (dm_numel d)) as [kk|]; simpl; [|reflexivity].
  f_equal. unfold dm_lin. change (dm_nr (dm_map f d)) with (dm_nr d).
  destruct (_ && _); rewrite dm_map_build; apply dm_build_ext; intros p _ _; apply dm_at_map.
Qed.

(** Every index of a sub-matrix is an index of the matrix. *)
Lemma dm_build_nz {A} r c (f : nat * nat -> option A) x : In x (dm_nz (dm_build r c f)) ->
  exists p, fst p < r /\ snd p < c /\ f p = Some x.
Proof.
  simpl. intros H. apply in_map_iff in H as ((p & y) & E & H). simpl in E. subst y.
  apply in_flat_map in H as (q & Hq & H). destruct (f q) eqn:E; [|destruct H].
  destruct H as [[= -> ->]|[]]. apply in_all_pos in Hq as []. eauto.
Qed.

Lemma dm_at_nz {A} (d : dm A) p x : dm_at d p = Some x -> In x (dm_nz d).
Proof.
  unfold dm_at. generalize (sp_pat (dm_sp d)) as ps, (dm_nz d) as vs. induction ps as [|q ps IH]; intros [|v vs]; simpl; try discriminate.
  destruct (pos_eqb p q); [intros [= ->]; auto|]. intros H. right. eapply IH; eauto.
Qed.

Lemma dm_sub_nz {A} (d : dm A) rr cc x : In x (dm_nz (dm_sub d rr cc)) -> In x (dm_nz d).
Proof. intros H. apply dm_build_nz in H as (p & _ & _ & H). eapply dm_at_nz; eauto. Qed.

Lemma dm_get2_nz {A} (d : dm A) a b d' x : dm_get2 d a b = Ok d' -> In x (dm_nz d') -> In x (dm_nz d).
Proof.
  unfold dm_get2. destruct (sel_resolve a _) as [rr|]; simpl; [|discriminate].
  destruct (sel_resolve b _) as [cc|]; simpl; [|discriminate]. intros [= <-]. apply dm_sub_nz.
Qed.
Lemma dm_get1_nz {A} (d : dm A) a d' x : dm_get1 d a = Ok d' -> In x (dm_nz d') -> In x (dm_nz d).
Proof.
  unfold dm_get1. destruct (sel_resolve a _) as [kk|]; simpl; [|discriminate]. intros [= <-].
  unfold dm_lin. destruct (_ && _); intros H; apply dm_build_nz in H as (p & _ & _ & H); eapply dm_at_nz; eauto.
Qed.
Lemma dm_get2_ok {A} (d : dm A) a b d' : dm_get2 d a b = Ok d' -> DmOk d'.
Proof.
  unfold dm_get2. destruct (sel_resolve a _) as [rr|]; simpl; [|discriminate].
  destruct (sel_resolve b _) as [cc|]; simpl; [|discriminate]. intros [= <-]. apply dm_build_ok.
Qed.
Lemma dm_get1_ok {A} (d : dm A) a d' : dm_get1 d a = Ok d' -> DmOk d'.
Proof.
  unfold dm_get1. destruct (sel_resolve a _) as [kk|]; simpl; [|discriminate]. intros [= <-].
  unfold dm_lin. destruct (_ && _); apply dm_build_ok.
Qed.
Lemma dm_get1r_map {A B} (f : A -> B) d l : dm_get1r (dm_map f d) l = rmap (dm_map f) (dm_get1r d l).
Proof.
  unfold dm_get1r. change (dm_numel (dm_map f d)) with (dm_numel d).
  destruct (sel_resolve (SelList l) (dm_numel d)) as [kk|]; simpl rbind; [|reflexivity]. simpl rmap.
  f_equal. unfold dm_linr. change (dm_nr (dm_map f d)) with (dm_nr d). change (dm_nc (dm_map f d)) with (dm_nc d).
  destruct (_ =? _); rewrite dm_map_build; apply dm_build_ext; intros p _ _; apply dm_at_map.
Qed.
Lemma dm_get1r_nz {A} (d : dm A) l d' x : dm_get1r d l = Ok d' -> In x (dm_nz d') -> In x (dm_nz d).
Proof.
  unfold dm_get1r. destruct (sel_resolve _ _) as [kk|]; simpl; [|discriminate]. intros [= <-].
  unfold dm_linr. destruct (_ =? _); intros H; apply dm_build_nz in H as (p & _ & _ & H); eapply dm_at_nz; eauto.
Qed.
Lemma dm_get1r_ok {A} (d : dm A) l d' : dm_get1r d l = Ok d' -> DmOk d'.
Proof.
  unfold dm_get1r. destruct (sel_resolve _ _) as [kk|]; simpl; [|discriminate]. intros [= <-].
  unfold dm_linr. destruct (_ =? _); apply dm_build_ok.
Qed.

(** Reading a vector through an index matrix. *)
Definition vals {A} (zero : A) (v : list A) (i : dm nat) : dm A := dm_map (fun k => nth k v zero) i.

Definition inb {A} (v : list A) (i : dm nat) : Prop := Forall (fun k => k < length v) (dm_nz i).

Lemma get_all {A} (zero : A) v l : Forall (fun k => k < length v) l ->
  rmapM (fun k => match nth_error v k with Some a => Ok a | None => Err EException end) l = Ok (map (fun k => nth k v zero) l).
Proof.
  induction 1 as [|k l Hk Hl IH]; [reflexivity|]. simpl. rewrite (nth_error_nth' v zero Hk). simpl. now rewrite IH.
Qed.

Lemma get_all_inv {A} (v : list A) l r :
  rmapM (fun k => match nth_error v k with Some a => Ok a | None => Err EException end) l = Ok r -> Forall (fun k => k < length v) l.
Proof.
  intros H. apply rmapM_Ok in H. induction H as [|k x l l' Hk Hl IH]; constructor; [|exact IH].
  destruct (nth_error v k) eqn:E; [|discriminate]. eapply nth_error_Some_lt_; eauto.
Qed.

Lemma cvi_ok {A} (zero : A) v i : SpOk (dm_sp i) -> inb v i ->
  (let* r := vec_get v i in dm_reshape r (dm_nr i) (dm_nc i)) = Ok (vals zero v i).
Proof.
  intros [_ Hb] Hi. unfold vec_get. rewrite (get_all zero v _ Hi). simpl.
  rewrite Forall_forall in Hb. unfold vals, dm_map.
  destruct ((sp_nr (dm_sp i) =? 1) && negb (sp_nc (dm_sp i) =? 1)) eqn:E; simpl; unfold dm_reshape, dm_numel, dm_nr, dm_nc in *; simpl.
  - apply andb_true_iff in E as [E _]. apply Nat.eqb_eq in E. rewrite E.
    replace (1 * sp_nc (dm_sp i) =? sp_nc (dm_sp i) * 1) with true by (symmetry; apply Nat.eqb_eq; lia).
    f_equal. f_equal. destruct (dm_sp i) as [r c pat]; simpl in *. subst r. f_equal. rewrite map_map.
    rewrite <- (map_id pat) at 2. apply map_ext_in. intros [a b] Hp. specialize (Hb _ Hp). simpl in *.
    unfold reshape_pos. cbn [fst snd]. assert (a = 0) by lia. subst a.
    rewrite Nat.mod_1_r, Nat.div_1_r. f_equal.
  - rewrite Nat.eqb_refl. f_equal. f_equal. destruct (dm_sp i) as [r c pat]; simpl in *. f_equal.
    rewrite <- (map_id pat) at 2. apply map_ext_in. intros [a b] Hp. specialize (Hb _ Hp). simpl in *.
    unfold reshape_pos. cbn [fst snd]. f_equal.
    + rewrite Nat.add_comm, Nat.mod_add by lia. apply Nat.mod_small. lia.
    + rewrite Nat.add_comm, Nat.div_add by lia. rewrite (Nat.div_small a r) by lia. reflexivity.
Qed.

Lemma cvi_inv {A} (v : list A) i r : (let* r := vec_get v i in dm_reshape r (dm_nr i) (dm_nc i)) = Ok r -> inb v i.
Proof.
  unfold vec_get, inb. destruct (rmapM _ (dm_nz i)) as [nz|] eqn:E; simpl; [|discriminate]. intros _.
  eapply get_all_inv; eauto.
Qed.

Lemma nth_error_ext {A} (l : list A) : forall l', (forall i, nth_error l i = nth_error l' i) -> l = l'.
Proof.
  induction l as [|a l IH]; intros [|b l'] H.
  - reflexivity.
  - specialize (H 0). discriminate.
  - specialize (H 0). discriminate.
  - pose proof (H 0) as H0. simpl in H0. injection H0 as ->. f_equal. apply IH. intros i. exact (H (S i)).
Qed.

(** Writing through an index list. *)
Lemma vec_set_list_length {A} ks : forall (v : list A) xs, length (vec_set_list v ks xs) = length v.
Proof.
  induction ks as [|k ks IH]; intros v [|x xs]; simpl; try reflexivity. now rewrite IH, set_nth_length.
Qed.

Lemma vec_set_list_other {A} ks : forall (v : list A) xs k, ~ In k ks ->
  nth_error (vec_set_list v ks xs) k = nth_error v k.
Proof.
  induction ks as [|j ks IH]; intros v [|x xs] k H; simpl; try reflexivity. simpl in H.
  rewrite IH by tauto. apply nth_error_set_nth_other. tauto.
Qed.

Lemma vec_set_list_at {A} ks : forall (v : list A) xs i k x, NoDup ks -> Forall (fun k => k < length v) ks ->
  nth_error ks i = Some k -> nth_error xs i = Some x -> nth_error (vec_set_list v ks xs) k = Some x.
Proof.
  induction ks as [|j ks IH]; intros v xs i k x Hnd Hb Hi Hx; [destruct i; discriminate|].
  destruct xs as [|y xs]; [destruct i; discriminate|]. apply NoDup_cons_iff in Hnd as [Hj Hnd].
  apply Forall_cons_iff in Hb as [Hb0 Hb]. simpl. destruct i as [|i]; simpl in *.
  - injection Hi as ->. injection Hx as ->. rewrite vec_set_list_other by exact Hj.
    now apply nth_error_set_nth_same.
  - apply (IH _ xs i); auto. now rewrite set_nth_length.
Qed.

Lemma vec_set_list_vals {A} (zero : A) ks v xs : NoDup ks -> Forall (fun k => k < length v) ks -> length xs = length ks ->
  map (fun k => nth k (vec_set_list v ks xs) zero) ks = xs.
Proof.
  intros Hnd Hb Hl. apply nth_error_ext. intros i. rewrite nth_error_map_. destruct (nth_error ks i) as [k|] eqn:E.
  - assert (Hi : i < length xs) by (rewrite Hl; eapply nth_error_Some_lt_; eauto).
    destruct (nth_error xs i) as [x|] eqn:Ex; [|apply nth_error_None in Ex; lia].
    pose proof (vec_set_list_at ks v xs i k x Hnd Hb E Ex) as H. f_equal. now apply nth_error_nth with (d := zero) in H.
  - symmetry. apply nth_error_None in E. apply nth_error_None. lia.
Qed.

(** What an index of shape/pattern [sp] receives from an assigned matrix [m]:
    a scalar is broadcast, an equally shaped matrix is taken elementwise (missing
    elements are zero), a vector may be transposed. *)
Definition fit {A} (zero : A) (m : dm A) (sp : spy) (p : nat * nat) : A :=
  if dm_is_scalar m then dm_val zero m (0, 0)
  else if (sp_nr sp =? dm_nr m) && (sp_nc sp =? dm_nc m) then dm_val zero m p
  else dm_val zero m (snd p, fst p).

(** Shapes accepted by an assignment to an index of shape [sp]. *)
Definition fits {A} (m : dm A) (sp : spy) : Prop :=
  dm_shape m = (1, 1) \/ dm_shape m = (sp_nr sp, sp_nc sp) \/
  (dm_shape m = (sp_nc sp, sp_nr sp) /\ Nat.min (sp_nr sp) (sp_nc sp) = 1).

Lemma dm_at_nth {A} (d : dm A) i p : DmOk d -> nth_error (sp_pat (dm_sp d)) i = Some p -> dm_at d p = nth_error (dm_nz d) i.
Proof. intros [Hs Hl] H. apply pos_assoc_nth; auto. now apply SpOk_NoDup. Qed.

Lemma nz_vals {A} (zero : A) (m : dm A) : DmOk m -> dm_nz m = map (dm_val zero m) (sp_pat (dm_sp m)).
Proof.
  intros Hm. apply map_Some_inj. destruct Hm as [Hs Hl]. rewrite (assoc_values _ _ (SpOk_NoDup _ Hs) Hl), map_map.
  apply map_ext_in. intros p Hp. destruct (dm_at_Some m p (conj Hs Hl) Hp) as (v & E). unfold dm_val. rewrite E.
  exact E.
Qed.

Lemma map_const {A B C} (c : C) (l : list A) (l' : list B) : length l = length l' -> map (fun _ => c) l = map (fun _ => c) l'.
Proof. revert l'. induction l as [|a l IH]; intros [|b l'] H; try discriminate; [reflexivity|]. simpl. f_equal. apply IH. simpl in H. lia. Qed.

Lemma scalar_nz {A} (zero : A) (m : dm A) : DmOk m -> dm_is_scalar m = true ->
  match dm_nz m with [] => dm_val zero m (0, 0) = zero | a :: _ => dm_val zero m (0, 0) = a end.
Proof.
  intros Hm Hs. destruct Hm as [[Hso Hb] Hl]. unfold dm_is_scalar in Hs. apply andb_true_iff in Hs as [H1 H2].
  apply Nat.eqb_eq in H1, H2. unfold dm_nr, dm_nc in *. unfold dm_val, dm_at. destruct m as [[r c pat] nz]; simpl in *. subst r c.
  unfold sp_nnz in Hl. simpl in Hl. destruct nz as [|a nz].
  - destruct pat; [reflexivity|discriminate].
  - destruct pat as [|[x y] pat]; [discriminate|]. apply Forall_cons_iff in Hb as [[Hx Hy] _]. simpl in Hx, Hy.
    assert (x = 0) by lia. assert (y = 0) by lia. subst. reflexivity.
Qed.

Lemma dm_T_at {A} (d : dm A) p : DmOk d -> dm_at (dm_T d) p = dm_at d (snd p, fst p).
Proof.
  intros Hd. unfold dm_T. rewrite dm_build_at. destruct ((fst p <? dm_nc d) && (snd p <? dm_nr d)) eqn:E; [reflexivity|].
  destruct (dm_at d (snd p, fst p)) eqn:Ev; [|reflexivity]. destruct (dm_at_bounds d _ _ Hd Ev) as [H1 H2]. simpl in *.
  apply Nat.ltb_lt in H1, H2. rewrite H1, H2 in E. discriminate.
Qed.

(** The value list written by [vec_set]. *)
Lemma vec_set_spec {A} (zero : A) v i m : DmOk i -> DmOk m ->
  vec_set zero v i m =
    if (dm_is_scalar m || (dm_nr i =? dm_nr m) && (dm_nc i =? dm_nc m) ||
        (dm_nr i =? dm_nc m) && (dm_nc i =? dm_nr m) && (Nat.min (dm_nr m) (dm_nc m) =? 1))
       && forallb (fun k => k <? length v) (dm_nz i)
    then Ok (vec_set_list v (dm_nz i) (map (fit zero m (dm_sp i)) (sp_pat (dm_sp i)))) else Err EException.
Proof.
  intros Hi Hm. unfold vec_set, vec_assign, fit. 
  destruct (spy_eqb (dm_sp i) (dm_sp m)) eqn:Eq.
  - apply spy_eqb_eq in Eq. unfold dm_nr, dm_nc. rewrite Eq, !Nat.eqb_refl. rewrite orb_true_r. simpl.
    destruct (forallb _ (dm_nz i)); [|reflexivity]. f_equal. f_equal. rewrite (nz_vals zero m Hm).
    destruct (dm_is_scalar m) eqn:Es; [|reflexivity].
    apply map_ext_in. intros p Hp. destruct Hm as [[_ Hb] _]. rewrite Forall_forall in Hb. specialize (Hb p Hp).
    unfold dm_is_scalar, dm_nr, dm_nc in Es. apply andb_true_iff in Es as [E1 E2]. apply Nat.eqb_eq in E1, E2.
    destruct p as [a b]; simpl in *. f_equal. f_equal; lia.
  - destruct (dm_is_scalar m) eqn:Es.
    + pose proof (scalar_nz zero m Hm Es) as Hz. simpl. 
      destruct Hi as [_ Hl]. unfold sp_nnz in Hl.
      destruct (dm_nz m) as [|a nz]; rewrite Hz; simpl;
        (destruct (forallb _ (dm_nz i)); [|reflexivity]); rewrite (map_const _ _ _ Hl); reflexivity.
    + fold (dm_nr i) (dm_nc i). destruct ((dm_nr i =? dm_nr m) && (dm_nc i =? dm_nc m)) eqn:E; simpl.
      * destruct (forallb _ (dm_nz i)); reflexivity.
      * destruct ((dm_nr i =? dm_nc m) && (dm_nc i =? dm_nr m) && (Nat.min (dm_nr m) (dm_nc m) =? 1)); simpl; [|reflexivity].
        destruct (forallb _ (dm_nz i)); [|reflexivity]. f_equal. f_equal.
        apply map_ext. intros p. rewrite (dm_T_at m p Hm). reflexivity.
Qed.

Lemma fits_bool {A} (m : dm A) (i : dm nat) :
  dm_is_scalar m || (dm_nr i =? dm_nr m) && (dm_nc i =? dm_nc m) ||
        (dm_nr i =? dm_nc m) && (dm_nc i =? dm_nr m) && (Nat.min (dm_nr m) (dm_nc m) =? 1) = true <-> fits m (dm_sp i).
Proof.
  unfold fits, dm_is_scalar, dm_shape. fold (dm_nr i) (dm_nc i).
  rewrite !orb_true_iff, !andb_true_iff, !Nat.eqb_eq. split.
  - intros [[[-> ->]|[-> ->]]|[[-> ->] H]]; auto. rewrite Nat.min_comm in H. auto.
  - intros [[= -> ->]|[[= -> ->]|[[= -> ->] H]]]; auto. right. rewrite Nat.min_comm. auto.
Qed.

Lemma forallb_inb {A} (v : list A) i : forallb (fun k => k <? length v) (dm_nz i) = true <-> inb v i.
Proof.
  unfold inb. rewrite forallb_forall, Forall_forall. split; intros H x Hx; apply Nat.ltb_lt; auto.
Qed.

(** Summary for an index whose flat positions are distinct and valid. *)
Lemma vec_set_ok {A} (zero : A) v i m : DmOk i -> DmOk m -> inb v i ->
  (fits m (dm_sp i) /\ vec_set zero v i m = Ok (vec_set_list v (dm_nz i) (map (fit zero m (dm_sp i)) (sp_pat (dm_sp i))))) \/
  (~ fits m (dm_sp i) /\ vec_set zero v i m = Err EException).
Proof.
  intros Hi Hm Hb. rewrite (vec_set_spec zero v i m Hi Hm). apply forallb_inb in Hb. rewrite Hb, andb_true_r.
  destruct (_ || _) eqn:E.
  - left. split; [now apply fits_bool|reflexivity].
  - right. split; [|reflexivity]. intros H. apply fits_bool in H. congruence.
Qed.

Lemma vec_assign_length {A} sk (zero : A) v i m v' : vec_assign sk zero v i m = Ok v' -> length v' = length v.
Proof.
  unfold vec_assign.
  assert (G : forall m' w, (if forallb (fun k => k <? length v) (dm_nz i) then Ok (vec_set_list v (dm_nz i) (dm_nz m')) else Err EException) = Ok w
     -> length w = length v).
  { intros m' w. destruct (forallb _ _); [|discriminate]. intros [= <-]. apply vec_set_list_length. }
  destruct (spy_eqb _ _); [apply G|]. destruct (dm_is_scalar m).
  - destruct (dm_nz m); [destruct sk; [intros [= <-]; reflexivity|]|]; apply G.
  - destruct (_ && _); [apply G|]. destruct (_ && _); [apply G|discriminate].
Qed.

Lemma vec_assign_other {A} sk (zero : A) v i m v' k : vec_assign sk zero v i m = Ok v' -> ~ In k (dm_nz i) ->
  nth_error v' k = nth_error v k.
Proof.
  unfold vec_assign. intros H Hk. revert H.
  assert (G : forall m' w, (if forallb (fun k => k <? length v) (dm_nz i) then Ok (vec_set_list v (dm_nz i) (dm_nz m')) else Err EException) = Ok w
     -> nth_error w k = nth_error v k).
  { intros m' w. destruct (forallb _ _); [|discriminate]. intros [= <-]. now apply vec_set_list_other. }
  destruct (spy_eqb _ _); [apply G|]. destruct (dm_is_scalar m).
  - destruct (dm_nz m); [destruct sk; [intros [= <-]; reflexivity|]|]; apply G.
  - destruct (_ && _); [apply G|]. destruct (_ && _); [apply G|discriminate].
Qed.
