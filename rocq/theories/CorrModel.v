(** Model of the queries of Cosy and Inadequate, methods/correlation.py.  The other parts of their queries are those of Method2D,
    methods_data.json lines 76-101: no D. *)
From Coq Require Import ZArith List.
From Verif Require Import PathwayModel MethodsModel.
Import ListNotations.

(** Lines 95-106. *)
Definition Cosy_queries : list query := [(channel1 [[of_int (-1)]], None); (channel1 [[of_int (-1)]], None)].
(** Lines 180-192. *)
Definition Inadequate_queries : list query := [(channel1 [[of_int (-1); of_int (-1)]], None); (channel1 [[of_int (-1)]], None)].
