(** Vocabulary of C138: boxes without edges that are not numbers. *)
From Verif Require Import Py InstFloat MBounds.
Definition numbers (r : rect b64) : Prop := not_nan (left r) /\ not_nan (right r) /\ not_nan (top r) /\ not_nan (bottom r).
