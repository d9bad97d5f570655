(** What is claimed of seeds. *)
From Coq Require Import List Arith Bool.
From Verif Require Import SD_Model.
Import ListNotations.

(** Events that neither build nor run what is called [n]. *)
Definition elsewhere {P N A : Type} (n : nat) (e : event P N A) : Prop :=
  match e with Build _ _ _ m _ _ => m <> n | Evolute _ _ _ m _ => m <> n | Elsewhere _ _ _ _ => True end.
(** The optimizers that seed the generators at every run. *)
Definition seeding_runs : list kind := [DE; MFO; JAYA; HHO; NHHO; NGA].
(** Events that do not build anything called [n]. *)
Definition keeps {P N A : Type} (n : nat) (e : event P N A) : Prop := match e with Build _ _ _ m _ _ => m <> n | _ => True end.
