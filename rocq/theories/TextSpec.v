(** TextSpec.v -- literal text as a list of bytes. *)
From Coq Require Import ZArith List String Ascii.

Definition zs (s : string) : list Z := map (fun a => Z.of_N (N_of_ascii a)) (list_ascii_of_string s).
Arguments zs s%string_scope.
Export StringSyntax.
