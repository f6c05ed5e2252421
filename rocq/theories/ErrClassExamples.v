(** Examples for the exceptions of [entry(...)] (C116). *)
From Verif Require Import PyBase IndexModel DMModel StructModel StructSpec PowerModel EntryModel EntrySpec EntryProofs ErrClassSpec ErrClassThms.
Open Scope nat_scope.

Notation kws2 a b c d := ([(a%string, c); (b%string, d)] : kwargs nat).
Lemma nd2 (a b : string) (c d : kval nat) : a <> b -> NoDup (map fst [(a, c); (b, d)]).
Proof. intros H. repeat constructor; simpl; intuition congruence. Qed.
(** entry('P', shape=-1, repeat=2) *)
Example entry_exception_ex : entry_init "P" (kws2 "shape" "repeat" (VInt (-1)) (VInt 2)) = Err EException.
Proof.
  apply entry_exception; [now apply nd2|intros k v [[= <- <-]|[[= <- <-]|[]]]; exact I| | | |].
  - intros HV. apply (entry_accepts_iff "P") in HV as (ce & Hc); [discriminate|now apply nd2].
  - intros v [[=]|[[=]|[]]].
  - intros v [[= <-]|[[=]|[]]]. exact I.
  - intros v [[= <-]|[[=]|[]]] (l & [Hx|Hx] & _); discriminate Hx.
Qed.
(** entry('P', shape=(2, 3), type='symm'): the keywords but 'type' are accepted, the matrix is not square. *)
Example entry_type_error_ex : entry_init "P" (kws2 "shape" "type" (VTuple [VInt 2; VInt 3]) (VStr "symm")) = Err EType.
Proof.
  apply entry_type_error; [now apply nd2|intros k v [[= <- <-]|[[= <- <-]|[]]]; simpl; auto|split; [intros v [[=]|[[= <-]|[]]]; exact I|intros v [[= <-]|[[=]|[]]] x [<-|[<-|[]]]; exact I]|]. split.
  - apply (entry_accepts_iff "P"); [repeat constructor; simpl; intuition|]. eexists. reflexivity.
  - exists (VStr "symm"). split; [right; now left|]. intros (_ & sp & HS & Hq). destruct HS as [e ? ? ? H|e H|v m H|v sp H HA|v l sp _ _ HA _|_ _ HA _]; try (destruct H as [[=]|[[=]|[]]]).
    + subst. inversion HA; subst. cbn in Hq. lia.
    + exact (HA (VTuple [VInt 2; VInt 3]) (or_introl eq_refl)).
    + exact (HA (VTuple [VInt 2; VInt 3]) (or_introl eq_refl)).
Qed.
(** entry('P', shape=('a', 2), repeat=2) *)
Example entry_not_impl_ex : entry_init "P" (kws2 "shape" "repeat" (VTuple [VStr "a"; VInt 2]) (VInt 2)) = Err ENotImpl.
Proof.
  apply entry_not_impl; [now apply nd2|intros k v [[= <- <-]|[[= <- <-]|[]]]; simpl; auto|split; [intros v [[=]|[[=]|[]]]|intros v [[= <-]|[[=]|[]]] x [<-|[<-|[]]]; exact I]|]. split; [intros k v [[= <- <-]|[[= <- <-]|[]]]; simpl; tauto|]. split.
  - intros k k' v v' Hc [[= <- <-]|[[= <- <-]|[]]] [[= <- <-]|[[= <- <-]|[]]]; simpl in Hc; intuition discriminate.
  - split; [exists [2%Z]; eapply DR_given; [right; left; reflexivity|constructor]|]. exists (VTuple [VStr "a"; VInt 2]). split; [now left|]. exists [VStr "a"; VInt 2]. split; [now right|]. split; [now right|]. intros [|z zs]; discriminate.
Qed.
(** entry('P', shape=2, struct=s) *)
Example early_class_ex s : entry_init "P" (kws2 "shape" "struct" (VInt 2) (VStructure s)) = Err EException.
Proof. apply early_class; [now apply nd2|]. right. left. exists "shape"%string, "struct"%string, (VInt 2), (VStructure s). split; [now left|]. split; [now left|]. right. now left. Qed.
