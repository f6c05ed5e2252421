(** Proofs about [entry(...)] and lists of entries. *)
From Coq Require Import Permutation Sorted.
From Verif Require Import PyBase IndexModel DMModel StructModel StructSpec PowerModel EntryModel EntrySpec
  IndexProofs StructProofs LayoutProofs LayoutThms LayoutExamples DMProofs PowerProofs PowerThms3.
Open Scope nat_scope.

Section P.
Context {T : Type}.
Notation kval := (kval T).
Notation kwargs := (kwargs T).

Lemma get_given (kw : kwargs) k v : NoDup (map fst kw) -> (dict_get k kw = Some v <-> given kw k v).
Proof. intros H. split; [apply dict_get_In|now apply dict_get_of_In]. Qed.
Lemma get_absent (kw : kwargs) k : NoDup (map fst kw) -> (dict_get k kw = None <-> absent kw k).
Proof.
  intros H. split.
  - intros E v Hv. apply (get_given kw k v H) in Hv. congruence.
  - intros Ha. destruct (dict_get k kw) as [v|] eqn:E; [|reflexivity]. apply dict_get_In in E. now apply Ha in E.
Qed.
Lemma has_given (kw : kwargs) k : has k kw = true <-> exists v, given kw k v.
Proof.
  unfold has. rewrite str_mem_In, in_map_iff. split.
  - intros ([k' v] & <- & H). now exists v.
  - intros [v H]. now exists (k, v).
Qed.
Lemma has_absent (kw : kwargs) k : has k kw = false <-> absent kw k.
Proof.
  split.
  - intros E v Hv. assert (has k kw = true) by (apply has_given; eauto). congruence.
  - intros Ha. destruct (has k kw) eqn:E; [|reflexivity]. apply has_given in E as [v Hv]. now apply Ha in Hv.
Qed.

(** ** Key checks *)
Lemma keys_check (kw : kwargs) : forallb (fun k => str_mem (fst k) kws) kw = true <-> (forall k v, given kw k v -> In k doc_keywords).
Proof.
  rewrite forallb_forall. split.
  - intros H k v Hv. specialize (H (k, v) Hv). apply str_mem_In in H. simpl in *. intuition.
  - intros H [k v] Hv. apply str_mem_In. specialize (H k v Hv). simpl in *. intuition.
Qed.

Lemma conflict_check (kw : kwargs) :
  existsb (fun c => has (fst c) kw && existsb (fun f => has f kw) (snd c)) forbidden = true <->
  exists k k' v v', In (k, k') doc_conflicts /\ given kw k v /\ given kw k' v'.
Proof.
  rewrite existsb_exists. split.
  - intros ([k fs] & Hin & H). apply andb_true_iff in H as [H1 H2]. apply existsb_exists in H2 as (k' & Hk' & H2).
    cbn [fst snd] in *. apply has_given in H1 as [v Hv]. apply has_given in H2 as [v' Hv'].
    assert (HC : In (k, k') doc_conflicts \/ In (k', k) doc_conflicts).
    { simpl in Hin. destruct Hin as [E|[E|[E|[E|[E|[]]]]]]; injection E as <- <-; simpl in Hk'; simpl; intuition (subst; auto 20). }
    destruct HC; [exists k, k', v, v'|exists k', k, v', v]; auto.
  - intros (k & k' & v & v' & Hin & Hv & Hv').
    assert (H1 : has k kw = true) by (apply has_given; eauto).
    assert (H2 : has k' kw = true) by (apply has_given; eauto).
    assert (HF : exists fs, In (k, fs) forbidden /\ In k' fs).
    { simpl in Hin. 
      repeat (destruct Hin as [E|Hin]; [injection E as <- <-; eexists; split; [simpl; auto 10|simpl; auto]|]). destruct Hin. }
    destruct HF as (fs & Hf & Hk). exists (k, fs). split; [exact Hf|]. simpl. rewrite H1. simpl.
    apply existsb_exists. eauto.
Qed.

(** ** Single keywords *)
Lemma ints_map (l : list kval) zs : ints l = Some zs <-> l = map VInt zs.
Proof.
  revert zs. induction l as [|v l IH]; intros zs.
  - simpl. split; [now intros [= <-]|]. destruct zs; [auto|discriminate].
  - simpl. destruct v; try (split; [discriminate|destruct zs; discriminate]).
    destruct (ints l) as [zs'|].
    + split; [intros [= <-]; simpl; f_equal; now apply IH|]. destruct zs as [|y zs]; [discriminate|]. intros [= -> H].
      apply IH in H. congruence.
    + split; [discriminate|]. destruct zs as [|y zs]; [discriminate|]. intros [= -> H]. apply IH in H. discriminate.
Qed.

Lemma VInt_inj a b : map (@VInt T) a = map VInt b -> a = b.
Proof.
  intros H. pose proof (proj2 (ints_map _ a) eq_refl) as H1. rewrite H, (proj2 (ints_map _ b) eq_refl) in H1. congruence.
Qed.

Lemma kw_repeat_spec (kw : kwargs) r : NoDup (map fst kw) ->
  (kw_repeat kw = Ok r <-> (absent kw "repeat" /\ r = [] \/ exists v, given kw "repeat" v /\ RepeatArg v r)).
Proof.
  intros Hn. unfold kw_repeat. destruct (dict_get "repeat" kw) as [v|] eqn:E.
  - assert (Hg : given kw "repeat" v) by now apply get_given.
    assert (HR : kw_repeat kw = Ok r <-> RepeatArg v r).
    { unfold kw_repeat. rewrite E. destruct v; try (simpl; split; [discriminate|inversion 1]).
      - simpl. split; [intros [= <-]; constructor|inversion 1; auto].
      - destruct (ints l) as [zs|] eqn:Ei.
        + apply ints_map in Ei. subst. split; [intros [= <-]; constructor|]. inversion 1 as [|zs' E'].
          f_equal. first [apply VInt_inj in E'|idtac]; congruence.
        + split; [discriminate|]. inversion 1; subst. rewrite (proj2 (ints_map _ r) eq_refl) in Ei. discriminate. }
    unfold kw_repeat in HR. rewrite E in HR. rewrite HR. split.
    + intros Hr. right. eauto.
    + intros [[Ha _]|(v' & Hv' & Hr)]; [now apply Ha in Hg|]. apply (get_given _ _ _ Hn) in Hv'. congruence.
  - simpl. pose proof (proj1 (get_absent _ _ Hn) E) as Ha. split; [intros [= <-]; auto|].
    intros [[_ ->]|(v' & Hv' & _)]; [auto|now apply Ha in Hv'].
Qed.

Lemma dense_spec r c sp : sparsity_dense [r; c] = Ok sp <-> exists n m, r = Z.of_nat n /\ c = Z.of_nat m /\ sp = sp_dense n m.
Proof.
  unfold sparsity_dense. destruct ((r <? 0) || (c <? 0))%Z eqn:E.
  - apply orb_true_iff in E. split; [discriminate|]. intros (n & m & -> & -> & _). destruct E as [E|E]; apply Z.ltb_lt in E; lia.
  - apply orb_false_iff in E as [E1 E2]. apply Z.ltb_ge in E1, E2. split.
    + intros [= <-]. exists (Z.to_nat r), (Z.to_nat c). repeat split; lia.
    + intros (n & m & -> & -> & ->). now rewrite !Nat2Z.id.
Qed.
Lemma dense_spec1 r sp : sparsity_dense [r] = Ok sp <-> exists n, r = Z.of_nat n /\ sp = sp_dense n 1.
Proof.
  change (sparsity_dense [r]) with (sparsity_dense [r; 1%Z]). rewrite dense_spec. split.
  - intros (n & m & -> & E & ->). exists n. split; [reflexivity|]. f_equal. lia.
  - intros (n & -> & ->). exists n, 1. auto.
Qed.

Lemma shape_list_spec (l : list kval) sp :
  (if (length l =? 0) || (2 <? length l) then Err EException
   else match ints l with Some zs => sparsity_dense zs | None => Err ENotImpl end) = Ok sp <->
  (exists n, l = [VInt (Z.of_nat n)] /\ sp = sp_dense n 1) \/ (exists n m, l = [VInt (Z.of_nat n); VInt (Z.of_nat m)] /\ sp = sp_dense n m).
Proof.
  destruct l as [|a [|b [|c l]]].
  - simpl. split; [discriminate|]. intros [(? & [=] & _)|(? & ? & [=] & _)].
  - cbn [length Nat.eqb Nat.ltb Nat.leb orb]. destruct a; simpl ints; cbn iota;
      try (split; [discriminate|intros [(? & [=] & _)|(? & ? & [=] & _)]]).
    rewrite dense_spec1. split; [intros (n & -> & ->); left; eauto|]. intros [(n & [= ->] & ->)|(n & m & [=] & _)]. eauto.
  - cbn [length Nat.eqb Nat.ltb Nat.leb orb]. destruct a; simpl ints; cbn iota;
      try (split; [discriminate|intros [(? & [=] & _)|(? & ? & [=] & _)]]).
    destruct b; simpl ints; cbn iota; try (split; [discriminate|intros [(? & [=] & _)|(? & ? & [=] & _)]]).
    rewrite dense_spec. split; [intros (n & m & -> & -> & ->); right; eauto 6|].
    intros [(n & [=] & _)|(n & m & [= -> ->] & ->)]. eauto.
  - simpl. split; [discriminate|]. intros [(? & [=] & _)|(? & ? & [=] & _)].
Qed.

Lemma kw_shape_spec (kw : kwargs) sp : NoDup (map fst kw) ->
  (kw_shape kw = Ok sp <-> (absent kw "shape" /\ sp = sp_dense 1 1 \/ exists v, given kw "shape" v /\ ShapeArg v sp)).
Proof.
  intros Hn. destruct (dict_get "shape" kw) as [v|] eqn:E.
  - assert (Hg : given kw "shape" v) by now apply get_given.
    assert (HR : kw_shape kw = Ok sp <-> ShapeArg v sp).
    { unfold kw_shape. rewrite E. destruct v; try (simpl; split; [discriminate|inversion 1]).
      - rewrite dense_spec. split.
        + intros (n & m & -> & Em & ->). replace m with 1 by lia. constructor.
        + inversion 1; subst. exists n, 1. auto.
      - rewrite shape_list_spec. split.
        + intros [(n & -> & ->)|(n & m & -> & ->)]; constructor.
        + inversion 1; subst; [left|right]; eauto.
      - rewrite shape_list_spec. split.
        + intros [(n & -> & ->)|(n & m & -> & ->)]; constructor.
        + inversion 1; subst; [left|right]; eauto.
      - split; [intros [= <-]; constructor|inversion 1; auto]. }
    rewrite HR. split; [eauto|]. intros [[Ha _]|(v' & Hv' & Hr)]; [now apply Ha in Hg|].
    apply (get_given _ _ _ Hn) in Hv'. congruence.
  - pose proof (proj1 (get_absent _ _ Hn) E) as Ha. unfold kw_shape. rewrite E. rewrite dense_spec. split.
    + intros (n & m & E1 & E2 & ->). left. split; [exact Ha|]. f_equal; lia.
    + intros [[_ ->]|(v' & Hv' & _)]; [exists 1, 1; auto|now apply Ha in Hv'].
Qed.

Lemma shape_comp_spec (v : kval) d : shape_comp v = Some d <-> CompArg v d.
Proof.
  split.
  - destruct v; try discriminate; intros [= <-]; constructor; [now left|right; eauto].
  - inversion 1 as [|? ? H']; subst; [reflexivity|]. destruct H' as [->|[m ->]]; reflexivity.
Qed.

Lemma shape_comps_spec (l : list kval) ds : shape_comps l = Some ds <-> Forall2 CompArg l ds.
Proof.
  revert ds. induction l as [|v l IH]; intros ds; simpl.
  - split; [intros [= <-]; constructor|inversion 1; auto].
  - destruct (shape_comp v) as [d|] eqn:E.
    + destruct (shape_comps l) as [ds'|] eqn:E'.
      * split; [intros [= <-]; constructor; [now apply shape_comp_spec|now apply IH]|].
        inversion 1 as [|? d' ? ds'' Hd Hds]; subst. apply shape_comp_spec in Hd. apply IH in Hds. congruence.
      * split; [discriminate|]. inversion 1 as [|? d' ? ds'' Hd Hds]; subst. apply IH in Hds. congruence.
    + split; [discriminate|]. inversion 1 as [|? d' ? ds'' Hd Hds]; subst. apply shape_comp_spec in Hd. congruence.
Qed.

Definition shapestruct_val (v : kval) : res (list sdim) :=
  match v with
  | VStructure s | VStructured s _ => Ok [SDS s; SDI 1]
  | VTuple l =>
      match shape_comps l with
      | None => Err EException
      | Some ds => if (length ds =? 0) || (2 <? length ds) then Err EException else Ok ds
      end
  | _ => Err EException
  end.

Lemma shapestruct_val_spec v l : shapestruct_val v = Ok l <-> ShapeStructArg v l.
Proof.
  split.
  - destruct v as [| | | |l0| | | | | |]; try discriminate.
    + simpl. destruct (shape_comps l0) as [ds|] eqn:E; [|discriminate]. apply shape_comps_spec in E.
      destruct E as [|a d l1 ds1 H1 [|b e l2 ds2 H2 [|c f l3 ds3 H3 H4]]]; try discriminate; intros [= <-].
      * now constructor.
      * now constructor.
    + intros [= <-]. constructor. now left.
    + intros [= <-]. constructor. right. eauto.
  - inversion 1 as [? ? [->|[m ->]]|? ? Hc|? ? ? ? Hc Hc']; subst; try reflexivity.
    + unfold shapestruct_val. rewrite (proj2 (shape_comps_spec [v0] [d])) by (constructor; auto). reflexivity.
    + unfold shapestruct_val. rewrite (proj2 (shape_comps_spec [v0; w] [d; e])) by (constructor; auto). reflexivity.
Qed.

Lemma sdim_size_spec d z : sdim_size d = Ok z -> (0 <= z)%Z -> DimSize d (Z.to_nat z).
Proof.
  destruct d as [s|n]; simpl.
  - destruct (casadi_structure s) as [c|] eqn:E; [|discriminate]. simpl. intros [= <-] _. rewrite Nat2Z.id.
    constructor. exists c. auto.
  - intros [= <-] H. replace n with (Z.of_nat (Z.to_nat n)) at 1 by lia. constructor.
Qed.
Lemma DimSize_size d n : DimSize d n -> sdim_size d = Ok (Z.of_nat n).
Proof. destruct 1 as [|s n (c & E & <-)]; simpl; [reflexivity|]. now rewrite E. Qed.

Lemma ss_sp_spec l sp : ((let* zs := rmapM sdim_size l in sparsity_dense zs) = Ok sp) <-> ShapeStructSp l sp.
Proof.
  split.
  - destruct l as [|a [|b [|c l]]].
    + discriminate.
    + simpl. destruct (sdim_size a) as [za|] eqn:Ea; [|discriminate]. cbn [rbind]. rewrite dense_spec1.
      intros (n & -> & ->). constructor. rewrite <- (Nat2Z.id n). apply sdim_size_spec; [exact Ea|lia].
    + simpl. destruct (sdim_size a) as [za|] eqn:Ea; [|discriminate]. destruct (sdim_size b) as [zb|] eqn:Eb; [|discriminate].
      cbn [rbind]. rewrite dense_spec.
      intros (n & m & -> & -> & ->). constructor; [rewrite <- (Nat2Z.id n)|rewrite <- (Nat2Z.id m)]; apply sdim_size_spec; auto; lia.
    + simpl. destruct (sdim_size a); [|discriminate]. destruct (sdim_size b); [|discriminate].
      destruct (sdim_size c); [|discriminate]. destruct (rmapM sdim_size l); discriminate.
  - destruct 1 as [d n Hd|d e n m Hd He].
    + simpl. rewrite (DimSize_size _ _ Hd). cbn [rbind]. apply dense_spec1. eauto.
    + simpl. rewrite (DimSize_size _ _ Hd), (DimSize_size _ _ He). cbn [rbind]. apply dense_spec. eauto.
Qed.

Lemma kw_shapestruct_spec (kw : kwargs) sp0 o sp : NoDup (map fst kw) ->
  (kw_shapestruct kw sp0 = Ok (o, sp) <->
   DocShapestruct kw o /\
   match o with
   | None => sp = sp0
   | Some l => (absent kw "shape" /\ ShapeStructSp l sp) \/ (~ absent kw "shape" /\ sp = sp0)
   end).
Proof.
  intros Hn. unfold kw_shapestruct. destruct (dict_get "shapestruct" kw) as [v|] eqn:E.
  - assert (Hg : given kw "shapestruct" v) by now apply get_given.
    fold (shapestruct_val v). destruct (shapestruct_val v) as [l|] eqn:El.
    + apply shapestruct_val_spec in El. cbn [rbind].
      assert (Huniq : forall l', DocShapestruct kw (Some l') -> l' = l).
      { intros l' (v' & Hv' & Hl'). apply (get_given _ _ _ Hn) in Hv'. assert (v' = v) by congruence. subst.
        apply shapestruct_val_spec in El, Hl'. congruence. }
      destruct (has "shape" kw) eqn:Eh.
      * assert (Hna : ~ absent kw "shape") by (intros Ha; apply has_absent in Ha; congruence).
        split.
        -- intros [= <- <-]. split; [exists v; auto|]. right. auto.
        -- intros [Hd Ho]. destruct o as [l'|]; [|exfalso; exact (Hd v Hg)]. rewrite (Huniq _ Hd).
           destruct Ho as [[Ha _]|[_ ->]]; [now apply Hna in Ha|reflexivity].
      * apply has_absent in Eh. split.
        -- intros H. destruct (rmapM sdim_size l) as [zs|] eqn:Ez; [|discriminate]. cbn [rbind] in H.
           destruct (sparsity_dense zs) as [sp'|] eqn:Es; [|discriminate]. injection H as <- <-.
           split; [exists v; auto|]. left. split; [exact Eh|]. apply ss_sp_spec. rewrite Ez. exact Es.
        -- intros [Hd Ho]. destruct o as [l'|]; [|exfalso; exact (Hd v Hg)]. rewrite (Huniq _ Hd) in *.
           destruct Ho as [[_ Hs]|[Hna _]]; [|contradiction]. apply ss_sp_spec in Hs.
           destruct (rmapM sdim_size l) as [zs|]; [|discriminate]. cbn [rbind] in *. rewrite Hs. reflexivity.
    + cbn [rbind]. split; [discriminate|]. intros [Hd _]. destruct o as [l'|]; [|exfalso; exact (Hd v Hg)].
      destruct Hd as (v' & Hv' & Hl'). apply (get_given _ _ _ Hn) in Hv'. assert (v' = v) by congruence. subst.
      apply shapestruct_val_spec in Hl'. congruence.
  - apply (get_absent _ _ Hn) in E. split.
    + intros [= <- <-]. auto.
    + intros [Hd Ho]. destruct o as [l'|]; [|now subst]. destruct Hd as (v & Hv & _). now apply E in Hv.
Qed.

Lemma kw_sym_spec (kw : kwargs) st0 sp0 o st sp : NoDup (map fst kw) ->
  (kw_sym kw st0 sp0 = Ok (o, st, sp) <->
   (absent kw "sym" /\ o = None /\ st = st0 /\ sp = sp0) \/
   (exists m, given kw "sym" (VSX true m) /\ o = Some m /\ st = st0 /\ sp = dm_sp m) \/
   (exists s m, given kw "sym" (VStructured s m) /\ o = Some m /\ st = Some s /\ sp = dm_sp m)).
Proof.
  intros Hn. unfold kw_sym. destruct (dict_get "sym" kw) as [v|] eqn:E.
  - assert (Hg : given kw "sym" v) by now apply get_given.
    assert (Hu : forall v', given kw "sym" v' -> v' = v) by (intros v' H; apply (get_given _ _ _ Hn) in H; congruence).
    assert (Hna : ~ absent kw "sym") by (intros Ha; now apply Ha in Hg).
    split.
    + destruct v; try discriminate; [|destruct valid; [|discriminate]]; intros [= <- <- <-]; right; [right|left]; eauto 8.
    + intros [[Ha _]|[(m & Hm & -> & -> & ->)|(s & m & Hm & -> & -> & ->)]]; [contradiction|..];
        rewrite <- (Hu _ Hm); reflexivity.
  - apply (get_absent _ _ Hn) in E. split; [intros [= <- <- <-]; auto|].
    intros [(_ & -> & -> & ->)|[(m & Hm & _)|(s & m & Hm & _)]]; [reflexivity|now apply E in Hm..].
Qed.

Lemma val_sparsity_spec (v : kval) sp : val_sparsity v = Some sp <-> MatrixOf v sp.
Proof.
  split.
  - destruct v; try discriminate; simpl.
    + destruct (casadi_structure s) as [c|] eqn:E; [|discriminate]. intros [= <-]. constructor. exists c. auto.
    + intros [= <-]. constructor.
    + intros [= <-]. constructor.
  - destruct 1 as [| |s m n (c & E & <-)]; simpl; [reflexivity..|]. now rewrite E.
Qed.

Lemma getPrimitive_first (e : kval) dims p : FirstOf e dims p -> forall rep, getPrimitive e rep = (Some p, rep ++ dims).
Proof.
  induction 1 as [v sp H|x l dims p H IH]; intros rep.
  - rewrite app_nil_r. destruct H; reflexivity.
  - cbn [getPrimitive]. rewrite IH, <- app_assoc. reflexivity.
Qed.
Lemma getPrimitive_none (e : kval) : NoFirst e -> forall rep, exists r, getPrimitive e rep = (None, r).
Proof.
  induction 1 as [| |x l H IH]; intros rep; simpl; eauto.
Qed.
Lemma FirstOf_leaf (e : kval) dims p : FirstOf e dims p -> exists sp, MatrixOf p sp.
Proof. induction 1; eauto. Qed.
Lemma kval_nest_ind (P : kval -> Prop) :
  (forall v, (forall l, v <> VList l) -> P v) -> P (VList []) -> (forall x l, P x -> P (VList (x :: l))) -> forall v, P v.
Proof.
  intros H1 H2 H3. fix IH 1. intros v. destruct v; try (apply H1; congruence).
  destruct l as [|x l]; [exact H2|apply H3, IH].
Qed.
Lemma getPrimitive_inv (e : kval) : forall rep o r, getPrimitive e rep = (o, r) ->
  match o with
  | Some p => forall sp, MatrixOf p sp -> exists dims, r = rep ++ dims /\ FirstOf e dims p
  | None => NoFirst e
  end.
Proof.
  induction e as [v Hv| |x l IH] using kval_nest_ind.
  - intros rep o r. destruct v; simpl; try (exfalso; apply (Hv l); reflexivity); (intros E; injection E as <- <-; try constructor);
      intros sp0 H; exists []; rewrite app_nil_r; (split; [reflexivity|econstructor; exact H]).
  - simpl. intros rep o r [= <- <-]. constructor.
  - intros rep o r E. cbn [getPrimitive] in E. specialize (IH _ _ _ E). destruct o as [p|]; [|now constructor].
    intros sp Hsp. destruct (IH sp Hsp) as (dims & -> & Hf). exists (Z.of_nat (length (x :: l)) :: dims).
    rewrite <- app_assoc. split; [reflexivity|]. now constructor.
Qed.

Lemma kw_expr_spec (kw : kwargs) rep0 sp0 o rep sp : NoDup (map fst kw) ->
  (kw_expr kw rep0 sp0 = Ok (o, rep, sp) <->
   (absent kw "expr" /\ o = None /\ rep = rep0 /\ sp = sp0) \/
   (exists e p, given kw "expr" e /\ FirstOf e rep p /\ MatrixOf p sp /\ o = Some e) \/
   (exists e, given kw "expr" e /\ NoFirst e /\ rep = [0%Z] /\ sp = sp_dense 0 0 /\ o = match e with VNone => None | _ => Some e end)).
Proof.
  intros Hn. unfold kw_expr. destruct (dict_get "expr" kw) as [v|] eqn:E.
  - assert (Hg : given kw "expr" v) by now apply get_given.
    assert (Hu : forall v', given kw "expr" v' -> v' = v) by (intros v' H; apply (get_given _ _ _ Hn) in H; congruence).
    assert (Hna : ~ absent kw "expr") by (intros Ha; now apply Ha in Hg).
    split.
    + destruct (getPrimitive v []) as [[p|] r] eqn:Ep.
      * destruct (val_sparsity p) as [sp'|] eqn:Es; [|discriminate]. apply val_sparsity_spec in Es.
        destruct (getPrimitive_inv _ _ _ _ Ep _ Es) as (dims & Er & Hf). simpl in Er. subst r. intros [= <- <- <-].
        right. left. exists v, p. repeat split; auto. destruct v; try reflexivity. inversion Hf as [? ? H|]; subst. inversion H.
      * pose proof (getPrimitive_inv _ _ _ _ Ep) as Hno. intros [= <- <- <-]. right. right. exists v. repeat split; auto.
    + intros [[Ha _]|[(e & p & He & Hf & Hs & ->)|(e & He & Hno & -> & -> & ->)]]; [contradiction|..]; rewrite (Hu _ He) in *.
      * rewrite (getPrimitive_first _ _ _ Hf). apply val_sparsity_spec in Hs. rewrite Hs. simpl.
        destruct v; try reflexivity. inversion Hf as [? ? H|]; subst. inversion H.
      * destruct (getPrimitive_none _ Hno []) as [r ->]. reflexivity.
  - apply (get_absent _ _ Hn) in E. split; [intros [= <- <- <-]; auto|].
    intros [(_ & -> & -> & ->)|[(e & p & He & _)|(e & He & _)]]; [reflexivity|now apply E in He..].
Qed.

Lemma pos_mem_upper p n : pos_mem p (sp_pat (sp_upper n)) = (fst p <=? snd p) && (snd p <? n).
Proof.
  apply eq_true_iff_eq. unfold sp_upper. cbn [sp_pat]. unfold pos_mem. rewrite existsb_exists, andb_true_iff.
  setoid_rewrite filter_In. setoid_rewrite in_all_pos. split.
  - intros (q & [[H1 H2] H3] & E). unfold pos_eqb in E. apply andb_true_iff in E as [E1 E2].
    apply Nat.eqb_eq in E1, E2. rewrite E1, E2. split; [exact H3|]. apply Nat.ltb_lt. lia.
  - intros [H1 H2]. apply Nat.ltb_lt in H2. pose proof (proj1 (Nat.leb_le _ _) H1). exists p. repeat split; try lia; auto.
    unfold pos_eqb. now rewrite !Nat.eqb_refl.
Qed.

Lemma kw_type_spec (kw : kwargs) sp0 b o sp : NoDup (map fst kw) ->
  (kw_type kw sp0 = Ok (b, o, sp) <-> DocStored kw sp0 sp b o).
Proof.
  intros Hn. unfold kw_type. destruct (dict_get "type" kw) as [v|] eqn:E.
  - assert (Hg : given kw "type" v) by now apply get_given.
    assert (Hu : forall v', given kw "type" v' -> v' = v) by (intros v' H; apply (get_given _ _ _ Hn) in H; congruence).
    split.
    + destruct v as [| |t| | | | | | | |]; try discriminate. destruct (String.eqb_spec t "symm") as [->|]; [|discriminate].
      destruct (sp_nr sp0 =? sp_nc sp0) eqn:En; [|discriminate]. apply Nat.eqb_eq in En. cbn [negb].
      unfold sp_inter. unfold sp_upper at 1 2. cbn [sp_nr sp_nc]. rewrite Nat.eqb_refl, En, Nat.eqb_refl. cbn [andb rbind].
      intros [= <- <- <-]. rewrite <- En. erewrite filter_ext by (intros p; apply pos_mem_upper). constructor; auto.
    + inversion 1 as [? Ha|? n Ht Hr Hc]; subst; [now apply Ha in Hg|]. rewrite <- (Hu _ Ht). rewrite String.eqb_refl.
      rewrite Hc, Nat.eqb_refl. cbn [negb]. unfold sp_inter. unfold sp_upper at 1 2. cbn [sp_nr sp_nc].
      rewrite Hc, Nat.eqb_refl. cbn [andb rbind]. do 3 f_equal. apply filter_ext. intros p. apply pos_mem_upper.
  - apply (get_absent _ _ Hn) in E. split; [intros [= <- <- <-]; now constructor|].
    inversion 1 as [? Ha|? n Ht Hr Hc]; subst; [reflexivity|now apply E in Ht].
Qed.

Lemma kw_struct_spec (kw : kwargs) : NoDup (map fst kw) ->
  match kw_struct kw with
  | Some s => exists v, given kw "struct" v /\ struct_value v s
  | None => forall v s, given kw "struct" v -> ~ struct_value v s
  end.
Proof.
  intros Hn. unfold kw_struct. destruct (dict_get "struct" kw) as [v|] eqn:E.
  - assert (Hg : given kw "struct" v) by now apply get_given.
    assert (Hu : forall v', given kw "struct" v' -> v' = v) by (intros v' H; apply (get_given _ _ _ Hn) in H; congruence).
    destruct v; try (intros v' s' Hv'; rewrite (Hu _ Hv'); intros [H|[m' H]]; discriminate).
    + eexists. split; [exact Hg|]. now left.
    + eexists. split; [exact Hg|]. right. eauto.
  - apply (get_absent _ _ Hn) in E. intros v s Hv. now apply E in Hv.
Qed.

Lemma no_conflict (kw : kwargs) k k' v : existsb (fun c => has (fst c) kw && existsb (fun f => has f kw) (snd c)) forbidden = false ->
  In (k, k') doc_conflicts \/ In (k', k) doc_conflicts -> given kw k v -> absent kw k'.
Proof.
  intros E Hin Hv v' Hv'. assert (H : existsb (fun c => has (fst c) kw && existsb (fun f => has f kw) (snd c)) forbidden = true).
  { apply conflict_check. destruct Hin; [exists k, k', v, v'|exists k', k, v', v]; auto. }
  congruence.
Qed.

(** ** C34 *)
Theorem entry_unknown name (kw : kwargs) k v : given kw k v -> ~ In k doc_keywords -> exists x, entry_init name kw = Err x.
Proof.
  intros Hg Hk. unfold entry_init. destruct (forallb (fun k => str_mem (fst k) kws) kw) eqn:E; [|eexists; reflexivity].
  apply (proj1 (keys_check kw)) with (k := k) (v := v) in E; [contradiction|exact Hg].
Qed.

Theorem entry_conflict name (kw : kwargs) k k' v v' : In (k, k') doc_conflicts -> given kw k v -> given kw k' v' ->
  exists x, entry_init name kw = Err x.
Proof.
  intros Hin Hv Hv'. unfold entry_init. destruct (forallb _ kw); [|eexists; reflexivity].
  assert (H : existsb (fun c => has (fst c) kw && existsb (fun f => has f kw) (snd c)) forbidden = true) by (apply conflict_check; eauto 8).
  rewrite H. eexists; reflexivity.
Qed.

Theorem entry_bad_repeat name (kw : kwargs) v : NoDup (map fst kw) -> given kw "repeat" v -> (forall zs, ~ RepeatArg v zs) ->
  exists x, entry_init name kw = Err x.
Proof.
  intros Hn Hg Hb. unfold entry_init. destruct (forallb _ kw); [|eexists; reflexivity]. cbn [negb].
  destruct (existsb _ forbidden); [eexists; reflexivity|].
  destruct (kw_repeat kw) as [r|] eqn:E; [|eexists; reflexivity].
  apply (kw_repeat_spec _ _ Hn) in E as [[Ha _]|(v' & Hv' & Hr)]; [now apply Ha in Hg|].
  apply (get_given _ _ _ Hn) in Hv', Hg. assert (v' = v) by congruence. subst. now apply Hb in Hr.
Qed.

Theorem entry_result name (kw : kwargs) ce : NoDup (map fst kw) -> entry_init name kw = Ok ce ->
  e_name (ce_entry ce) = name /\
  DocRepeat kw (e_dims (ce_entry ce)) /\
  (exists sp, DocSparsity kw sp /\ DocStored kw sp (e_sp (ce_entry ce)) (e_symm (ce_entry ce)) (e_orig (ce_entry ce))) /\
  DocStruct kw (e_struct (ce_entry ce)) /\
  DocShapestruct kw (e_shape (ce_entry ce)).
Proof.
  intros Hn. unfold entry_init. destruct (forallb _ kw) eqn:Ek; [|discriminate]. cbn [negb].
  destruct (existsb _ forbidden) eqn:Ec; [discriminate|].
  destruct (kw_repeat kw) as [r|] eqn:Er; [|discriminate]. cbn [rbind].
  destruct (kw_shape kw) as [sp1|] eqn:Esh; [|discriminate]. cbn [rbind].
  destruct (kw_shapestruct kw sp1) as [[shs sp2]|] eqn:Ess; [|discriminate]. cbn [rbind].
  destruct (kw_sym kw (kw_struct kw) sp2) as [[[sym st] sp3]|] eqn:Esy; [|discriminate]. cbn [rbind].
  destruct (kw_expr kw r sp3) as [[[ex rep] sp4]|] eqn:Eex; [|discriminate]. cbn [rbind].
  destruct (kw_type kw sp4) as [[[symm orig] sp5]|] eqn:Et; [|discriminate]. cbn [rbind].
  intros [= <-]. cbn [ce_entry e_name e_dims e_sp e_symm e_orig e_struct e_shape].
  apply (kw_repeat_spec _ _ Hn) in Er. apply (kw_shape_spec _ _ Hn) in Esh. apply (kw_shapestruct_spec _ _ _ _ Hn) in Ess as [Hss Hsp2].
  apply (kw_sym_spec _ _ _ _ _ _ Hn) in Esy. apply (kw_expr_spec _ _ _ _ _ _ Hn) in Eex. apply (kw_type_spec _ _ _ _ _ Hn) in Et.
  split; [reflexivity|]. split; [|split; [|split; [|exact Hss]]].
  - destruct Eex as [(Ha & _ & -> & _)|[(e & p & He & Hf & _)|(e & He & Hno & -> & _)]].
    + destruct Er as [[Hr ->]|(v & Hv & Hr)]; [now constructor|]. econstructor 2; eauto.
    + econstructor 3; eauto.
    + econstructor 4; eauto.
  - exists sp4. split; [|exact Et].
    destruct Eex as [(Hae & _ & _ & ->)|[(e & p & He & Hf & Hs & _)|(e & He & Hno & _ & -> & _)]];
      [|econstructor 1; eauto|econstructor 2; eauto].
    destruct Esy as [(Has & _ & _ & ->)|[(m & Hm & _ & _ & ->)|(s & m & Hm & _ & _ & ->)]];
      [|econstructor 3; [exact Hm|constructor]..].
    destruct Esh as [[Hash ->]|(v & Hv & Hsa)].
    + destruct shs as [l|].
      * destruct Hsp2 as [[_ Hl]|[Hna _]]; [|contradiction]. destruct Hss as (w & Hw & Hwl). econstructor 5; eauto.
      * subst sp2. now constructor 6.
    + assert (E2 : sp2 = sp1).
      { destruct shs as [l|]; [|exact Hsp2]. destruct Hsp2 as [[Ha _]|[_ E2]]; [now apply Ha in Hv|exact E2]. }
      subst. econstructor 4; eauto.
  - pose proof (kw_struct_spec kw Hn) as Hst. unfold DocStruct.
    destruct Esy as [(Has & _ & -> & _)|[(m & Hm & _ & -> & _)|(s & m & Hm & _ & -> & _)]].
    + destruct (kw_struct kw) as [s|].
      * left. split; [exact Hst|]. intros s' m' H. now apply Has in H.
      * split; [exact Hst|]. intros s' m' H. now apply Has in H.
    + assert (Hno : forall s' m', ~ given kw "sym" (VStructured s' m')).
      { intros s' m' H. apply (get_given _ _ _ Hn) in H, Hm. congruence. }
      destruct (kw_struct kw) as [s|]; [left|]; auto.
    + right. eauto.
Qed.

Theorem entry_accepts_iff name (kw : kwargs) : NoDup (map fst kw) ->
  ((exists ce, entry_init name kw = Ok ce) <-> Valid kw).
Proof.
  intros Hn. split.
  - intros [ce E]. pose proof (entry_result name kw ce Hn E) as (_ & Hr & (sp & Hs & Ht) & _ & Hss).
    unfold entry_init in E. destruct (forallb _ kw) eqn:Ek; [|discriminate]. cbn [negb] in E.
    destruct (existsb _ forbidden) eqn:Ec; [discriminate|].
    constructor.
    + now apply keys_check.
    + intros k k' v v' Hin Hv Hv'. pose proof (no_conflict kw k k' v Ec (or_introl Hin) Hv) as Ha. now apply Ha in Hv'.
    + eauto.
    + destruct (kw_repeat kw) as [r|] eqn:Er; [|discriminate]. cbn [rbind] in E.
      destruct (kw_shape kw) as [sp1|] eqn:Esh; [|discriminate]. cbn [rbind] in E.
      destruct (kw_shapestruct kw sp1) as [[shs sp2]|] eqn:Ess; [|discriminate].
      apply (kw_shapestruct_spec _ _ _ _ Hn) in Ess as [Hd Hsp]. exists shs. split; [exact Hd|].
      intros l -> Ha. destruct Hsp as [[_ H]|[H _]]; [eauto|contradiction].
    + eauto 8.
  - intros [Hk Hc [r Hr] (o & Ho & Hol) (sp & stored & symm & orig & Hs & Ht)]. unfold entry_init.
    rewrite (proj2 (keys_check kw) Hk). cbn [negb].
    destruct (existsb _ forbidden) eqn:Ec.
    { exfalso. apply conflict_check in Ec as (k & k' & v & v' & Hin & Hv & Hv'). eauto. }
    assert (Hconf : forall k k' v, In (k, k') doc_conflicts \/ In (k', k) doc_conflicts -> given kw k v -> absent kw k')
      by (intros; eapply no_conflict; eauto).
    assert (Er : exists r0, kw_repeat kw = Ok r0).
    { destruct Hr as [Ha _|v zs Hv Hz|e dims p He Hf|e He Hno].
      - exists []. apply (kw_repeat_spec _ _ Hn). auto.
      - exists zs. apply (kw_repeat_spec _ _ Hn). eauto.
      - exists []. apply (kw_repeat_spec _ _ Hn). left. split; [|reflexivity]. apply (Hconf "expr"%string _ e); [simpl; auto 20|exact He].
      - exists []. apply (kw_repeat_spec _ _ Hn). left. split; [|reflexivity]. apply (Hconf "expr"%string _ e); [simpl; auto 20|exact He]. }
    destruct Er as [r0 ->]. cbn [rbind].
    assert (Esh : exists sp0, kw_shape kw = Ok sp0 /\ (forall v, given kw "shape" v -> ShapeArg v sp0)).
    { destruct (dict_get "shape" kw) as [v|] eqn:Eg.
      - assert (Hg : given kw "shape" v) by now apply get_given.
        assert (Hu : forall v', given kw "shape" v' -> v' = v) by (intros v' H; apply (get_given _ _ _ Hn) in H; congruence).
        assert (Hsa : ShapeArg v sp).
        { destruct Hs as [e dims p sp He|e He|w m Hw|w sp Hw Hwa|w l sp _ _ Ha|_ _ Ha].
          - pose proof (Hconf "expr"%string "shape"%string e ltac:(simpl; auto 20) He) as Ha. now apply Ha in Hg.
          - pose proof (Hconf "expr"%string "shape"%string e ltac:(simpl; auto 20) He) as Ha. now apply Ha in Hg.
          - pose proof (Hconf "sym"%string "shape"%string w ltac:(simpl; auto 20) Hw) as Ha. now apply Ha in Hg.
          - now rewrite <- (Hu _ Hw).
          - now apply Ha in Hg.
          - now apply Ha in Hg. }
        exists sp. split; [apply (kw_shape_spec _ _ Hn); eauto|]. intros v' Hv'. now rewrite (Hu _ Hv').
      - apply (get_absent _ _ Hn) in Eg. exists (sp_dense 1 1). split; [apply (kw_shape_spec _ _ Hn); auto|].
        intros v Hv. now apply Eg in Hv. }
    destruct Esh as (sp0 & Esh & Hsh). rewrite Esh. cbn [rbind].
    assert (Ess : exists sp2, kw_shapestruct kw sp0 = Ok (o, sp2)).
    { destruct o as [l|].
      - destruct (has "shape" kw) eqn:Eh.
        + exists sp0. apply (kw_shapestruct_spec _ _ _ _ Hn). split; [exact Ho|]. right. split; [|reflexivity].
          intros Ha. apply has_absent in Ha. congruence.
        + apply has_absent in Eh. destruct (Hol l eq_refl Eh) as [sp2 Hsp2]. exists sp2.
          apply (kw_shapestruct_spec _ _ _ _ Hn). split; [exact Ho|]. left. auto.
      - exists sp0. apply (kw_shapestruct_spec _ _ _ _ Hn). auto. }
    destruct Ess as [sp2 Ess]. rewrite Ess. cbn [rbind].
    (* sym *)
    assert (Esy : exists sym st sp3, kw_sym kw (kw_struct kw) sp2 = Ok (sym, st, sp3) /\ (absent kw "expr" -> sp3 = sp)).
    { destruct (dict_get "sym" kw) as [v|] eqn:Eg.
      - assert (Hg : given kw "sym" v) by now apply get_given.
        assert (Hu : forall v', given kw "sym" v' -> v' = v) by (intros v' H; apply (get_given _ _ _ Hn) in H; congruence).
        assert (Hsa : exists m, SymArg v m /\ sp = dm_sp m).
        { destruct Hs as [e dims p sp He|e He|w m Hw Hm|w sp Hw Hwa|w l sp _ Ha|_ Ha].
          - pose proof (Hconf "expr"%string "sym"%string e ltac:(simpl; auto 20) He) as Ha. now apply Ha in Hg.
          - pose proof (Hconf "expr"%string "sym"%string e ltac:(simpl; auto 20) He) as Ha. now apply Ha in Hg.
          - exists m. split; [now rewrite <- (Hu _ Hw)|reflexivity].
          - pose proof (Hconf "shape"%string "sym"%string w ltac:(simpl; auto 20) Hw) as Ha. now apply Ha in Hg.
          - now apply Ha in Hg.
          - now apply Ha in Hg. }
        destruct Hsa as (m & Hsa & Esp). destruct Hsa as [m|s m].
        + exists (Some m), (kw_struct kw), (dm_sp m). split; [|auto]. apply (kw_sym_spec _ _ _ _ _ _ Hn). right. left. eauto 8.
        + exists (Some m), (Some s), (dm_sp m). split; [|auto]. apply (kw_sym_spec _ _ _ _ _ _ Hn). right. right. eauto 8.
      - apply (get_absent _ _ Hn) in Eg. exists None, (kw_struct kw), sp2. split; [apply (kw_sym_spec _ _ _ _ _ _ Hn); auto|].
        intros Hae. apply (kw_shapestruct_spec _ _ _ _ Hn) in Ess as [Hd Hsp2]. apply (kw_shape_spec _ _ Hn) in Esh.
        destruct Hs as [e dims p sp He|e He|w m Hw Hm|w sp Hw Hwa|w l sp _ _ Ha Hw Hwl Hl|_ _ Ha Ha'].
        + now apply Hae in He.
        + now apply Hae in He.
        + now apply Eg in Hw.
        + assert (E1 : sp0 = sp).
          { pose proof (Hsh _ Hw) as H0. clear - H0 Hwa. destruct Hwa; inversion H0; subst;
              repeat match goal with E : Z.of_nat _ = Z.of_nat _ |- _ => apply Nat2Z.inj in E end; subst; reflexivity. }
          destruct o as [l|]; [|congruence]. destruct Hsp2 as [[Ha _]|[_ E2]]; [now apply Ha in Hw|congruence].
        + destruct o as [l'|]; [|now apply Hd in Hw]. destruct Hd as (w' & Hw' & Hl').
          apply (get_given _ _ _ Hn) in Hw, Hw'. assert (w' = w) by congruence. subst.
          apply shapestruct_val_spec in Hwl, Hl'. assert (l' = l) by congruence. subst.
          destruct Hsp2 as [[_ H2]|[H2 _]]; [|contradiction]. apply ss_sp_spec in Hl, H2. congruence.
        + destruct o as [l'|]; [destruct Hd as (w' & Hw' & _); now apply Ha' in Hw'|].
          destruct Esh as [[_ ->]|(v & Hv & _)]; [congruence|now apply Ha in Hv]. }
    destruct Esy as (sym & st & sp3 & Esy & Hsp3). rewrite Esy. cbn [rbind].
    assert (Eex : exists ex rep, kw_expr kw r0 sp3 = Ok (ex, rep, sp)).
    { destruct (dict_get "expr" kw) as [v|] eqn:Eg.
      - assert (Hg : given kw "expr" v) by now apply get_given.
        assert (Hu : forall v', given kw "expr" v' -> v' = v) by (intros v' H; apply (get_given _ _ _ Hn) in H; congruence).
        destruct Hs as [e dims p sp He Hf Hm|e He Hno|w m Hw Hm|w sp Hw Hwa|w l sp Ha|Ha].
        + exists (Some e), dims. apply (kw_expr_spec _ _ _ _ _ _ Hn). right. left. eauto 8.
        + eexists. exists [0%Z]. apply (kw_expr_spec _ _ _ _ _ _ Hn). right. right. exists e. repeat split; auto.
        + pose proof (Hconf "sym"%string "expr"%string w ltac:(simpl; auto 20) Hw) as Ha. now apply Ha in Hg.
        + pose proof (Hconf "shape"%string "expr"%string w ltac:(simpl; auto 20) Hw) as Ha. now apply Ha in Hg.
        + now apply Ha in Hg.
        + now apply Ha in Hg.
      - apply (get_absent _ _ Hn) in Eg. exists None, r0. apply (kw_expr_spec _ _ _ _ _ _ Hn). left.
        repeat split; auto. symmetry. now apply Hsp3. }
    destruct Eex as (ex & rep & ->). cbn [rbind].
    apply (kw_type_spec _ _ _ _ _ Hn) in Ht. rewrite Ht. cbn [rbind]. eauto.
Qed.

(** The documented meaning is unique. *)
Theorem doc_unique (kw : kwargs) : NoDup (map fst kw) -> Valid kw ->
  (forall r r', DocRepeat kw r -> DocRepeat kw r' -> r = r') /\
  (forall sp sp', DocSparsity kw sp -> DocSparsity kw sp' -> sp = sp') /\
  (forall sp s1 b1 o1 s2 b2 o2, DocStored kw sp s1 b1 o1 -> DocStored kw sp s2 b2 o2 -> s1 = s2 /\ b1 = b2 /\ o1 = o2).
Proof.
  intros Hn [_ Hc _ _ _].
  assert (Hu : forall k v v', given kw k v -> given kw k v' -> v = v').
  { intros k v v' H H'. apply (get_given _ _ _ Hn) in H, H'. congruence. }
  assert (Hx : forall k k' v v', In (k, k') doc_conflicts \/ In (k', k) doc_conflicts -> given kw k v -> given kw k' v' -> False).
  { intros k k' v v' [H|H] Hv Hv'; eauto. }
  assert (HF : forall (e : kval) d1 p1 d2 p2, FirstOf e d1 p1 -> FirstOf e d2 p2 -> d1 = d2 /\ p1 = p2).
  { intros e d1 p1 d2 p2 H1 H2. pose proof (getPrimitive_first _ _ _ H1 []) as E1. rewrite (getPrimitive_first _ _ _ H2 []) in E1.
    simpl in E1. split; congruence. }
  assert (HN : forall (e : kval) d1 p1, FirstOf e d1 p1 -> NoFirst e -> False).
  { intros e d1 p1 H1 H2. destruct (getPrimitive_none _ H2 []) as [r E]. rewrite (getPrimitive_first _ _ _ H1) in E. discriminate. }
  assert (HM : forall (p : kval) s1 s2, MatrixOf p s1 -> MatrixOf p s2 -> s1 = s2).
  { intros p s1 s2 H1 H2. apply val_sparsity_spec in H1, H2. congruence. }
  split; [|split].
  - intros r r' H1 H2.
    destruct H1 as [Ha1 Hb1|v1 z1 Hv1 Hz1|e1 d1 p1 He1 Hf1|e1 He1 Hn1];
    destruct H2 as [Ha2 Hb2|v2 z2 Hv2 Hz2|e2 d2 p2 He2 Hf2|e2 He2 Hn2]; try reflexivity;
    try (exfalso; match goal with H : absent kw ?k, G : given kw ?k _ |- _ => now apply H in G end);
    try (exfalso; match goal with H : given kw "repeat" _, G : given kw "expr" _ |- _ => refine (Hx _ _ _ _ _ H G); simpl; auto 20 end).
    + rewrite (Hu _ _ _ Hv1 Hv2) in Hz1. destruct Hz1; inversion Hz2 as [|? Ez]; subst; [reflexivity|].
      first [now apply VInt_inj in Ez|symmetry; now apply VInt_inj in Ez].
    + rewrite (Hu _ _ _ He1 He2) in Hf1. now destruct (HF _ _ _ _ _ Hf1 Hf2).
    + rewrite (Hu _ _ _ He1 He2) in Hf1. now destruct (HN _ _ _ Hf1 Hn2).
    + rewrite (Hu _ _ _ He1 He2) in Hn1. now destruct (HN _ _ _ Hf2 Hn1).
  - intros sp sp' H1 H2.
    destruct H1 as [e1 d1 p1 s1 He1 Hf1 Hm1|e1 He1 Hn1|w1 m1 Hw1 Hm1|w1 s1 Hw1 Hs1|w1 l1 s1 Ha1 Hb1 Hc1 Hw1 Hl1 Hs1|Ha1 Hb1 Hc1 Hd1];
    destruct H2 as [e2 d2 p2 s2 He2 Hf2 Hm2|e2 He2 Hn2|w2 m2 Hw2 Hm2|w2 s2 Hw2 Hs2|w2 l2 s2 Ha2 Hb2 Hc2 Hw2 Hl2 Hs2|Ha2 Hb2 Hc2 Hd2];
    try reflexivity;
    try (exfalso; match goal with H : absent kw ?k, G : given kw ?k _ |- _ => now apply H in G end);
    try (exfalso; match goal with
         | H : given kw "sym" _, G : given kw "expr" _ |- _ => refine (Hx _ _ _ _ _ H G); simpl; auto 20
         | H : given kw "shape" _, G : given kw "expr" _ |- _ => refine (Hx _ _ _ _ _ H G); simpl; auto 20
         | H : given kw "shape" _, G : given kw "sym" _ |- _ => refine (Hx _ _ _ _ _ H G); simpl; auto 20
         end).
    + rewrite (Hu _ _ _ He1 He2) in Hf1. destruct (HF _ _ _ _ _ Hf1 Hf2) as [_ ->]. eauto.
    + rewrite (Hu _ _ _ He1 He2) in Hf1. now destruct (HN _ _ _ Hf1 Hn2).
    + rewrite (Hu _ _ _ He1 He2) in Hn1. now destruct (HN _ _ _ Hf2 Hn1).
    + rewrite (Hu _ _ _ Hw1 Hw2) in Hm1. destruct Hm1; inversion Hm2; subst; reflexivity.
    + rewrite (Hu _ _ _ Hw1 Hw2) in Hs1. clear - Hs1 Hs2. destruct Hs1; inversion Hs2; subst;
        repeat match goal with E : Z.of_nat _ = Z.of_nat _ |- _ => apply Nat2Z.inj in E end; subst; reflexivity.
    + rewrite (Hu _ _ _ Hw1 Hw2) in Hl1. apply shapestruct_val_spec in Hl1, Hl2. assert (l1 = l2) by congruence. subst.
      apply ss_sp_spec in Hs1, Hs2. congruence.
  - intros sp s1 b1 o1 s2 b2 o2 H1 H2. apply (kw_type_spec _ _ _ _ _ Hn) in H1, H2. rewrite H1 in H2. now injection H2 as <- <- <-.
Qed.

(** ** C08 *)
Lemma dup_free_NoDup l : dup_free l = true <-> NoDup l.
Proof.
  induction l as [|x l IH]; simpl; [split; [constructor|auto]|]. rewrite andb_true_iff, negb_true_iff, NoDup_cons_iff, IH.
  rewrite <- (str_mem_In x l). destruct (str_mem x l); intuition congruence.
Qed.

Lemma entry_arg (a : earg T) : entry_ [a] [] = Ok (arg_entry a).
Proof. destruct a; reflexivity. Qed.
Lemma ce_name_arg (a : earg T) : ce_name (arg_entry a) = arg_name a.
Proof. destruct a; reflexivity. Qed.
Lemma elist_item_ok (it : item_arg T) : elist_item it = Ok (item_entries it, item_order it).
Proof.
  destruct it as [a|l]; cbn [elist_item].
  - rewrite entry_arg. cbn [rbind]. rewrite ce_name_arg. reflexivity.
  - assert (E : rmapM (fun a => entry_ [a] []) l = Ok (map arg_entry l)).
    { induction l as [|a l IH]; [reflexivity|]. cbn [rmapM]. rewrite entry_arg. cbn [rbind]. rewrite IH. reflexivity. }
    rewrite E. cbn [rbind item_entries item_order]. rewrite map_map. do 3 f_equal. apply map_ext. exact ce_name_arg.
Qed.
Lemma elist_items_ok (l : list (item_arg T)) : rmapM elist_item l = Ok (map (fun it => (item_entries it, item_order it)) l).
Proof. induction l as [|it l IH]; [reflexivity|]. cbn [rmapM]. rewrite elist_item_ok. cbn [rbind]. rewrite IH. reflexivity. Qed.
Lemma arg_entries_names (l : list (item_arg T)) : map ce_name (arg_entries l) = arg_names l.
Proof.
  unfold arg_entries, arg_names. induction l as [|it l IH]; [reflexivity|]. simpl. rewrite map_app, IH. f_equal.
  destruct it as [a|g]; simpl; [now rewrite ce_name_arg|]. rewrite map_map. apply map_ext. exact ce_name_arg.
Qed.
Lemma flat_fst (l : list (item_arg T)) : flat_map fst (map (fun it => (item_entries it, item_order it)) l) = arg_entries l.
Proof. unfold arg_entries. induction l as [|it l IH]; [reflexivity|]. simpl. now rewrite IH. Qed.
Lemma grouped_check (l : list (item_arg T)) :
  existsb is_group (map snd (map (fun it => (item_entries it, item_order it)) l)) = true <-> grouped l.
Proof.
  rewrite map_map, existsb_exists. split.
  - intros (o & Ho & Hg). apply in_map_iff in Ho as (it & <- & Hit). destruct it as [a|g]; [discriminate|]. now exists g.
  - intros [g Hg]. exists (OGroup (map arg_name g)). split; [|reflexivity]. apply in_map_iff. now exists (ITup g).
Qed.

Theorem entry_list_iff (l : list (item_arg T)) order :
  (exists el, entry_list l order = Ok el) <-> NoDup (arg_names l) /\ (order = None \/ ~ grouped l).
Proof.
  unfold entry_list. rewrite elist_items_ok. cbn [rbind]. rewrite flat_fst, arg_entries_names.
  destruct order as [o|].
  - destruct (existsb is_group _) eqn:Eg.
    + apply grouped_check in Eg. cbn [rbind]. split; [intros [el [=]]|]. intros [_ [[=]|H]]. contradiction.
    + cbn [rbind]. destruct (dup_free (arg_names l)) eqn:Ed.
      * apply dup_free_NoDup in Ed. split; [|eauto]. intros _. split; [exact Ed|]. right. intros Hg. apply grouped_check in Hg. congruence.
      * split; [intros [el [=]]|]. intros [Hn _]. apply dup_free_NoDup in Hn. congruence.
  - cbn [rbind]. destruct (dup_free (arg_names l)) eqn:Ed.
    + apply dup_free_NoDup in Ed. split; eauto.
    + split; [intros [el [=]]|]. intros [Hn _]. apply dup_free_NoDup in Hn. congruence.
Qed.

Theorem entry_list_result (l : list (item_arg T)) order el : entry_list l order = Ok el ->
  el_entries el = arg_entries l /\ map ce_name (el_entries el) = arg_names l /\
  el_order el = match order with None => map item_order l | Some o => o end.
Proof.
  unfold entry_list. rewrite elist_items_ok. cbn [rbind]. rewrite flat_fst.
  destruct order as [o|].
  - destruct (existsb is_group _); [discriminate|]. cbn [rbind]. destruct (dup_free _); [|discriminate].
    intros [= <-]. repeat split. apply arg_entries_names.
  - cbn [rbind]. destruct (dup_free _); [|discriminate]. intros [= <-]. cbn [el_entries el_order].
    repeat split; [apply arg_entries_names|]. rewrite map_map. reflexivity.
Qed.

Lemma item_order_names (l : list (item_arg T)) : flat_map oelem_names (map item_order l) = arg_names l.
Proof.
  unfold arg_names. induction l as [|it l IH]; [reflexivity|]. simpl. rewrite IH. f_equal. now destruct it.
Qed.
Lemma arg_entries_ok (l : list (item_arg T)) ce : items_ok l -> In ce (arg_entries l) -> EntryOk (ce_entry ce).
Proof.
  intros Hok H. apply in_flat_map in H as (it & Hit & H). specialize (Hok it Hit).
  assert (HA : forall a : earg T, arg_ok a -> EntryOk (ce_entry (arg_entry a))).
  { intros [n|e] Ha; [|exact Ha]. split; [apply SpOk_dense|discriminate]. }
  destruct it as [a|g]; simpl in H.
  - destruct H as [<-|[]]. now apply HA.
  - apply in_map_iff in H as (a & <- & Ha). auto.
Qed.

(** [struct([...], order=...)] builds a well-formed structure, with the declared entries,
    in declaration order or in the order given. *)
Theorem struct_builds_order (l : list (item_arg T)) order : items_ok l -> OrderOk l order ->
  ((exists el c, struct_ l order = Ok (el, c)) <-> NoDup (arg_names l) /\ (order = None \/ ~ grouped l)) /\
  (forall el c, struct_ l order = Ok (el, c) ->
    Wf (cs_struct c) /\ casadi_structure (cs_struct c) = Ok c /\ el_entries el = arg_entries l /\
    s_entries (cs_struct c) = map ce_entry (arg_entries l) /\ s_order (cs_struct c) = the_order l order).
Proof.
  intros Hok Hor.
  assert (HP : Permutation (flat_map oelem_names (the_order l order)) (arg_names l)).
  { destruct order as [o|]; [now apply Hor|]. unfold the_order. rewrite item_order_names. apply Permutation_refl. }
  assert (EN : map e_name (map ce_entry (arg_entries l)) = arg_names l) by (rewrite map_map; apply arg_entries_names).
  assert (HW : forall el s, entry_list l order = Ok el -> structure_init (map ce_entry (el_entries el)) (Some (el_order el)) = Ok s ->
     Wf s /\ el_entries el = arg_entries l /\ s_entries s = map ce_entry (arg_entries l) /\ s_order s = the_order l order).
  { intros el s E Es. assert (Hnd : NoDup (arg_names l)) by (apply (entry_list_iff l order); eauto).
    destruct (entry_list_result l order el E) as (E1 & E2 & E3). fold (the_order l order) in E3. unfold structure_init in Es.
    destruct (forallb _ _); [|discriminate]. injection Es as <-. rewrite E1, E3. cbn [s_entries s_order].
    split; [|repeat split].
    constructor.
    - now rewrite EN.
    - rewrite EN. exact HP.
    - intros e He. apply in_map_iff in He as (ce & <- & Hce). now apply (arg_entries_ok l ce).
    - intros e s' He Hs'. apply in_map_iff in He as (ce & <- & Hce). now apply (arg_entries_ok l ce). }
  split.
  - split.
    + intros (el & c & E). unfold struct_ in E. destruct (entry_list l order) as [el'|] eqn:El; [|discriminate].
      apply (entry_list_iff l order). eauto.
    + intros Hnd. destruct (proj2 (entry_list_iff l order) Hnd) as [el El].
      unfold struct_. rewrite El. cbn [rbind].
      assert (Es : exists s, structure_init (map ce_entry (el_entries el)) (Some (el_order el)) = Ok s).
      { destruct (entry_list_result l order el El) as (E1 & E2 & E3). fold (the_order l order) in E3. unfold structure_init.
        rewrite E1, E3.
        rewrite (proj2 (forallb_forall _ _)); [eauto|]. intros n Hn. apply str_mem_In. rewrite EN. exact (Permutation_in _ HP Hn). }
      destruct Es as [s Es]. destruct (HW el s El Es) as [Hw _]. destruct (build_succeeds s Hw) as [c Hc].
      rewrite Es. cbn [rbind]. rewrite Hc. cbn [rbind]. eauto.
  - intros el c E. unfold struct_ in E. destruct (entry_list l order) as [el'|] eqn:El; [|discriminate]. cbn [rbind] in E.
    destruct (structure_init _ _) as [s|] eqn:Es; [|discriminate]. cbn [rbind] in E.
    destruct (casadi_structure s) as [c'|] eqn:Ec; [|discriminate]. injection E as <- <-.
    destruct (HW el' s eq_refl Es) as (Hw & H1 & H2 & H3).
    assert (Ecs : cs_struct c' = s).
    { unfold casadi_structure in Ec. destruct (build_loop _ _ _); [|discriminate]. injection Ec as <-. reflexivity. }
    rewrite Ecs. auto.
Qed.

(** Without order= *)
Theorem struct_builds (l : list (item_arg T)) : items_ok l ->
  ((exists el c, struct_ l None = Ok (el, c)) <-> NoDup (arg_names l)) /\
  (forall el c, struct_ l None = Ok (el, c) ->
    Wf (cs_struct c) /\ casadi_structure (cs_struct c) = Ok c /\
    s_entries (cs_struct c) = map ce_entry (arg_entries l) /\ s_keys (cs_struct c) = arg_names l /\
    s_order (cs_struct c) = map item_order l).
Proof.
  intros Hok. destruct (struct_builds_order l None Hok) as [H1 H2]; [intros o [=]|]. split.
  - rewrite H1. intuition.
  - intros el c E. destruct (H2 el c E) as (A & B & _ & C & D). unfold s_keys. rewrite D. unfold the_order. rewrite item_order_names. auto.
Qed.

(** Entries made from proper arguments are proper. *)
Lemma SpOk_filter sp f : SpOk sp -> SpOk (Spy (sp_nr sp) (sp_nc sp) (filter f (sp_pat sp))).
Proof.
  intros [H1 H2]. split; cbn [sp_pat sp_nr sp_nc].
  - revert H1. clear. generalize (sp_pat sp) as l. induction l as [|p l IH]; intros H; simpl; [constructor|].
    inversion H as [|? ? Hs Hf]; subst. destruct (f p); [|auto]. constructor; [auto|].
    apply Forall_forall. intros q Hq. apply filter_In in Hq as [Hq _]. rewrite Forall_forall in Hf. auto.
  - apply Forall_forall. intros q Hq. apply filter_In in Hq as [Hq _]. rewrite Forall_forall in H2. auto.
Qed.
Lemma FirstOf_ok (e : kval) dims p : FirstOf e dims p -> ValOk e -> ValOk p.
Proof. induction 1; simpl; [auto|tauto]. Qed.
Theorem entry_proper name (kw : kwargs) ce : NoDup (map fst kw) -> (forall k v, given kw k v -> ValOk v) ->
  entry_init name kw = Ok ce -> EntryOk (ce_entry ce).
Proof.
  intros Hn Hok E. destruct (entry_result name kw ce Hn E) as (_ & _ & (sp & Hs & Ht) & Hst & _). split.
  - assert (Hsp : SpOk sp).
    { destruct Hs as [e dims p sp He Hf Hm|e He|w m Hw Hm|w sp Hw Hwa|w l sp _ _ Ha Hw Hwl Hl|_ _ Ha Ha'].
      - specialize (Hok _ _ He). apply (FirstOf_ok _ _ _ Hf) in Hok. destruct Hm; simpl in Hok; auto. apply SpOk_dense.
      - apply SpOk_dense.
      - specialize (Hok _ _ Hw). destruct Hm; simpl in Hok; tauto.
      - specialize (Hok _ _ Hw). destruct Hwa; try apply SpOk_dense. exact Hok.
      - destruct Hl; apply SpOk_dense.
      - apply SpOk_dense. }
    destruct Ht as [sp _|sp n _ Hr Hc]; [exact Hsp|]. rewrite <- Hr at 1. rewrite <- Hc at 1. now apply SpOk_filter.
  - intros s Es. rewrite Es in Hst. destruct Hst as [[(v & Hv & Hs') _]|[m Hm]].
    + specialize (Hok _ _ Hv). destruct Hs' as [->|[m ->]]; simpl in Hok; tauto.
    + specialize (Hok _ _ Hm). simpl in Hok. tauto.
Qed.
End P.

(** 'struct' with a structure is kept. *)
Theorem struct_kept {T} name (kw : kwargs T) ce v s : NoDup (map fst kw) -> entry_init name kw = Ok ce ->
  given kw "struct" v -> struct_value v s -> (forall s' m, ~ given kw "sym" (VStructured s' m)) ->
  e_struct (ce_entry ce) = Some s.
Proof.
  intros Hn H Hg Hv Hs. destruct (entry_result _ _ _ Hn H) as (_ & _ & _ & Hd & _).
  destruct (e_struct (ce_entry ce)) as [s'|]; simpl in Hd.
  - destruct Hd as [[(v' & Hg' & Hv') _]|[m Hm]]; [|destruct (Hs _ _ Hm)].
    assert (v' = v) as ->.
    { apply (get_given kw) in Hg; auto. apply (get_given kw) in Hg'; auto. congruence. }
    destruct Hv as [->|[m ->]]; destruct Hv' as [?|[m' ?]]; congruence.
  - destruct Hd as [Hd _]. destruct (Hd _ _ Hg Hv).
Qed.
