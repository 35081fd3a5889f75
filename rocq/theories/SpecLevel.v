(** Vocabulary for C94: what a level of validation asks for. *)
From Verif Require Import Base Types Xml SpecXml SpecValidate SpecParse SpecFault.

(** The values of the dimArrayIndex of every array are valid. *)
Definition index_values_ok (l : level) (d : device) : Prop :=
  forall s a x v, array_in_device d s a -> de_array_index a = Some x -> In v (dai_values x) -> value_ok l v.
(** The document gives what the device has defaults for. *)
Definition header_given (n : xml) : Prop :=
  (exists s, says "version" n s) /\ (exists s, says "description" n s) /\
  (exists c, first_child "addressUnitBits" n c) /\ (exists c, first_child "width" n c).
