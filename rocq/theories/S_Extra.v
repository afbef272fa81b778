(** Operations of a scaler which store scaled data *)

From Coq Require Import List.
From Verif Require Import Num Vec M_Robcent.

(** neither transform nor fit_transform *)
Definition not_transform {A : Type} (o : @sc_op A) : Prop := match o with OpTransform _ | OpFitTransform _ => False | _ => True end.
(** not predict *)
Definition not_predict {A : Type} (o : @sc_op A) : Prop := match o with OpPredict _ => False | _ => True end.
