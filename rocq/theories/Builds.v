(** * Which builds read every text alike (C10). *)
From Verif Require Import Base Value Packed Parser Spec BaseProofs StringProofs ParserProofs ParserComplete GrammarProofs PropsParse BlockProofs.

(** a literal with [x] between the halves of a pair *)
Definition between (x : bytes) : bytes :=
  string_doc ([92; 117; 68; 56; 51; 68] ++ x ++ [92; 117; 68; 69; 48; 48]).
Lemma builds_agree jsonc be be' s : class_of be = class_of be' -> Forall is_byte s -> parse jsonc be s = parse jsonc be' s.
Proof.
  intros E Hb.
  assert (W : forall a b, exact_backend a -> exact_backend b -> (exists st, step a = Some st /\ (st <= 8)%nat) ->
    (exists st, step b = Some st /\ (st <= 8)%nat) -> parse jsonc a s = parse jsonc b s).
  { intros a b Ha Hb' (st & Hst & L) (st' & Hst' & L'). eapply words_agree; eauto. }
  destruct be as [|[]|[]| | | |], be' as [|[]|[]| | | |]; try discriminate E;
    (apply same_step; [reflexivity|reflexivity|exact Hb]) || (apply W; [exact I|exact I|eexists; split; [reflexivity|lia]..]).
Qed.
Definition probes : list bytes := map between [repeat 120 64; [120]; repeat 120 10; [93]; repeat 93 4].
Definition taken (jsonc : bool) (be : backend) : list bool :=
  map (fun s => match parse jsonc be s with Ok (Some _) => true | _ => false end) probes.
Lemma probes_bytes s : In s probes -> Forall is_byte s.
Proof.
  assert (H : forallb (forallb (fun c => c <? 256)) probes = true) by (vm_compute; reflexivity).
  intros Hs. rewrite forallb_forall in H. apply H in Hs. rewrite forallb_forall in Hs. apply Forall_forall.
  intros c Hc. unfold is_byte. now apply N.ltb_lt, Hs.
Qed.
Definition expected (c : build_class) : list bool :=
  match c with
  | Scalar => [false; false; false; false; false]
  | Words => [true; true; true; true; true]
  | BigWords 4 => [true; true; true; false; true]
  | BigWords _ => [true; true; true; false; false]
  | Vectors 16 => [true; false; true; false; false]
  | Vectors _ => [true; false; false; false; false]
  end.
Lemma taken_expected jsonc be : taken jsonc be = expected (class_of be).
Proof. destruct jsonc, be as [|[]|[]| | | |]; vm_compute; reflexivity. Qed.
Lemma taken_class jsonc be be' : taken jsonc be = taken jsonc be' -> class_of be = class_of be'.
Proof.
  rewrite !taken_expected. destruct be as [|[]|[]| | | |], be' as [|[]|[]| | | |]; intros H; try reflexivity; discriminate H.
Qed.
Theorem builds_exactly jsonc be be' : (forall s, Forall is_byte s -> parse jsonc be s = parse jsonc be' s) <-> class_of be = class_of be'.
Proof.
  split; [|intros E s Hb; now apply builds_agree].
  intros H. apply (taken_class jsonc). apply map_ext_in. intros s Hs. rewrite H; [reflexivity|now apply probes_bytes].
Qed.
