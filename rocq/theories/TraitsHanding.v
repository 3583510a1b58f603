(** * value's constructors hand over to array's and object's: proofs by cases. *)
From Verif Require Import Base Value Num Enum Conv Traits SpecTraits TraitsProofs.
From Coq Require Import Lia.

(** ** Handing over *)
Ltac finish_delegation Po :=
  let Ec := fresh in let Hk := fresh in
  vm_compute; intros Ec Hk; inj;
  first [discriminate
        | destruct Hk as [Hk|[Hk|Hk]]; first [discriminate | reflexivity]
        | exfalso; pose proof (Po _ eq_refl) as Q; destruct Hk as [Hk|[Hk|Hk]]; subst; exact Q].
Lemma construct_delegates T c k mv : possible T -> construct T c = Chosen k ->
  k = KFixed mv \/ k = KCollection mv \/ k = KTuple mv -> construct_array T (handed mv c) = Chosen k.
Proof.
  intros Po. destruct T as [i x u]. unfold possible in Po. cbn [c_user] in Po.
  destruct i as [s|us| | | | | | | | |it p|p|p|n|f].
  all: try (intros Ec Hk; exfalso; revert Ec; destruct x as [[] ? ? [] ?], c; vm_compute; intros Ec; inj;
    destruct Hk as [?|[?|?]]; discriminate).
  - destruct s, x as [[] ? ? [] ?], c, mv; finish_delegation Po.
  - destruct it, p, x as [[] ? ? [] ?], c, u as [[k'|]|], mv; finish_delegation Po.
  - destruct p, x as [[] ? ? [] ?], c, u as [[k'|]|], mv; finish_delegation Po.
  - destruct p, x as [[] ? ? [] ?], c, u as [[k'|]|], mv; finish_delegation Po.
  - destruct n, x as [[] ? ? [] ?], c, u as [[k'|]|], mv; finish_delegation Po.
  - expose. unfold construct_array, has_to_json, to_member, to_ext, feat.
    cbn [c_identity c_ext c_user features_of is_value_t is_array_t e_to_json e_move_to_json].
    destruct x as [xt xc xf xm xg]. cbn [e_to_json e_move_to_json].
    generalize (is_nullable f && pointee f) (is_map f && string_key f) (is_collection f) (is_container f && negb (is_map f))
      (is_tuple_like f) (is_fixed_array f) (f_to_json f).
    intros n m co cr tu fx tm.
    destruct (tm || xt) eqn:N.
    + cbn [negb]. rewrite ?andb_false_r. cbn [when app].
      intros Ec Hk. exfalso. revert Ec. destruct tm, xt; try discriminate N; destruct xm, c, u as [[k'|]|]; vm_compute; intros Ec;
        try discriminate; inj; destruct Hk as [Hk|[Hk|Hk]]; discriminate.
    + apply orb_false_elim in N. destruct N as [-> ->].
      destruct fx, tu; destruct co, cr, n, m, xm, c; destruct u as [[k'|]|]; destruct mv; finish_delegation Po.
Qed.
Lemma construct_delegates_map T c mv : possible T -> construct T c = Chosen (KMap mv) ->
  construct_object T (handed mv c) = Chosen (KMap mv).
Proof.
  intros Po. destruct T as [i x u]. unfold possible in Po. cbn [c_user] in Po.
  destruct i as [s|us| | | | | | | | |it p|p|p|n|f].
  1: destruct s, x as [[] ? ? [] ?], c; vm_compute; discriminate.
  1-9: destruct x as [[] ? ? [] ?], c; vm_compute; discriminate.
  1: destruct it, p, x as [[] ? ? [] ?], c, u as [[k'|]|]; vm_compute; try discriminate;
    intros Ec; inj; exfalso; exact (Po _ eq_refl).
  1-2: destruct p, x as [[] ? ? [] ?], c, u as [[k'|]|]; vm_compute; try discriminate;
    intros Ec; inj; exfalso; exact (Po _ eq_refl).
  1: destruct n, x as [[] ? ? [] ?], c, u as [[k'|]|]; vm_compute; try discriminate;
    intros Ec; inj; exfalso; exact (Po _ eq_refl).
  expose. unfold construct_object, has_to_json, to_member, to_ext, feat.
  cbn [c_identity c_ext c_user features_of is_value_t is_object_t e_to_json e_move_to_json].
  destruct x as [xt xc xf xm xg]. cbn [e_to_json e_move_to_json].
  rewrite !andb_true_r.
  generalize (is_nullable f && pointee f) (is_map f && string_key f) (is_collection f) (is_container f && negb (is_map f))
    (is_tuple_like f) (is_fixed_array f) (f_to_json f).
  intros n m co cr tu fx tm.
  destruct (tm || xt) eqn:N.
  - cbn [negb]. rewrite ?andb_false_r. cbn [when app].
    destruct tm, xt; try discriminate N; destruct xm, c, u as [[k'|]|]; vm_compute; intros Ec; try discriminate.
  - apply orb_false_elim in N. destruct N as [-> ->].
    destruct m.
    + destruct fx, tu; destruct co, cr, n, xm, c; destruct u as [[k'|]|]; destruct mv; vm_compute; intros Ec; try discriminate;
        reflexivity.
    + destruct fx, tu; destruct co, cr, n, xm, c; destruct u as [[k'|]|]; destruct mv; vm_compute; intros Ec; try discriminate;
        inj; exfalso; exact (Po _ eq_refl).
Qed.
