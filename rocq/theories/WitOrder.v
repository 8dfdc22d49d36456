(** Concrete cases meeting the hypotheses of the theorems of PropOrder.v. *)
From Verif Require Import Base StrModel Parser ValueModel DocModel View PropWrite PropIter PropOrder WitBase WitParse WitEntry WitTok WitEq WitNum WitStr.
Local Open Scope N_scope.

Definition at_C98_parts_are_the_lexemes := C98_parts_are_the_lexemes W64 config_default text0 value0 from0.
Definition at_C98_parts_in_order := C98_parts_in_order W64 config_default text0 value0 from0.
Definition at_C98_nodes_are_the_lexemes := C98_nodes_are_the_lexemes W64 config_default text0 doc0 value0 docfor0.
Definition at_C98_total_size := C98_total_size W64 config_default text0 doc0 value0 docfor0.
