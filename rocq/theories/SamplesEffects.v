(** * Concrete cases for the theorems on layout and effects. *)
From Verif Require Import Base Value Containers Dump Api Spec SpecApi SpecEffects SpecHeap BaseProofs ContainerProofs ApiProofs EffectProofs SpecLayout Samples SamplesApi.

Definition two : store := [v_object [(ka, v_null); (kb, v_array [v_bool true])]; v_array []; v_string []].
Lemma two_owned : Forall owned two /\ Forall tag_ok two.
Proof. split; repeat constructor; discriminate. Qed.
Lemma two_yields : yields two (EObj [(kb, ECopy (Loc 0 [Key kb])); (ka, EStr ka); (kb, ENull)])
  (VObj Tobject (Some [(ka, v_string ka); (kb, v_array [v_bool true])])) two.
Proof. apply expression_value. vm_compute. reflexivity. Qed.
Lemma two_yields_move : exists st', yields two (EMove (Loc 0 [Key kb])) (v_array [v_bool true]) st' /\ st' <> two.
Proof. eexists. split; [apply expression_value; vm_compute; reflexivity|discriminate]. Qed.
Lemma sample_nested : nested 6 (inject sample_json).
Proof. cbn. repeat (apply (ne_arr 5) || apply (ne_obj 5) || apply (ne_arr 4) || apply (ne_obj 4) || apply (ne_arr 3) || apply (ne_obj 3) || apply (ne_arr 2) || apply (ne_obj 2) || constructor). Qed.
