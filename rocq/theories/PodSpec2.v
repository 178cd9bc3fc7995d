(** * PodSpec2: crop and scale of a modal base *)
From Verif Require Import Num Res ListLib FieldModel FieldSpec ProfileModel ProfileSpec PodModel.

(** crop keeps the times from [a], included only if it is not after the first one [t0], to [b] included *)
Definition in_window (t0 a b x : num) : bool := ((qleb a t0 || qltb a x) && qleb x b)%bool.

(** the interval keeps two neighbouring points of the axis at least *)
Definition keeps_two (axe : list num) (iv : option (num * num)) : Prop :=
  exists i, S i < length axe /\ in_iv iv (nths axe i) /\ in_iv iv (nths axe (S i)).
(** a factor, when it carries a unit, carries a usable one *)
Definition good_factor (a : sarg) : Prop := match a with SUnum _ u => good_unit u | _ => True end.
