(** What the stack, the size and the copying of dump are compared with; [nodes], [height],
    [deep_array], [deep_object] are those of JsonCostSpec. *)
From Verif Require Import Base JsonModel.
Local Open Scope nat_scope.

(** the text of {"a":{}} with members indented by one [tab] per level, and every closing brace
    below the beginning of the line that opened it *)
Definition aligned (tab : bytes) : bytes :=
  ["{"%char; LF] ++ tab ++ [DQ; "a"%char; DQ] ++ str " : {" ++ [LF; LF] ++ tab ++ str "}" ++ [LF] ++ str "}".
