(** Saving a description and loading it again, any number of times and in either form. *)
From Coq Require Import List.
Import ListNotations.
From Verif Require Import Base Types Config Xml Encode Parse Serde SpecParse SpecArray SpecSerde SpecRound.

(** One way to save and load: as XML, written by one build and read by another with these
    options; or in serde form. *)
Inductive trip :=
  | AsXml (writer reader : mode) (conv : id_format -> string -> string) (cfg : config) (pcfg : pconfig)
  | AsData (writer reader : mode).
Definition makes (t : trip) (d d' : device) : Prop :=
  match t with
  | AsXml w r conv cfg pcfg => exists n, device_encode w conv cfg d = Ok n /\ device_parse r pcfg n = Ok d'
  | AsData w r => exists v, device_put w d = Ok v /\ device_get r v = Ok d'
  end.
Inductive travels : list trip -> device -> device -> Prop :=
  | tr_end d : travels [] d d
  | tr_more t ts d e f : makes t d e -> travels ts e f -> travels (t :: ts) d f.

(** What is asked of a way, for a description: of XML, options that change no names and
    no order and leave nothing out, and a description that can be read at the level of the
    reader; of serde, bit ranges that can be computed. *)
Definition suits (d : device) (t : trip) : Prop :=
  match t with
  | AsXml w _ _ cfg pcfg => no_cases cfg /\ in_place cfg /\ pc_ignore_enums pcfg = false /\
      device_fits (pc_level pcfg) d /\ (forall s a, array_in_device d s a -> calm w a)
  | AsData w _ => device_in w d
  end.
(** Some way of the list is serde. *)
Definition is_data (t : trip) : Prop := match t with AsData _ _ => True | _ => False end.
