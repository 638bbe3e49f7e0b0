(** Sanity checks of the model against the unit tests of /repo. *)
From stdpp Require Import gmap.
From Coq Require Import NArith String.
From Verif Require Import Base GoText Model1 Model2 Model3 Storage RefStorage.

Definition rrun {A} (zp : zpolicy) (p : prog A) : result (ref_storage zp) A :=
  run (ref_storage zp) p [] (st_init (ref_storage zp)) None.

(** internal/concrete/bit/repository_test.go 9-35 and 37-62 *)
Example test_bit_zero :
  r_out (rrun ZStrict (bit_provide false)) = OOk (BitEnt false 9 13).
Proof. vm_compute. reflexivity. Qed.

Example test_bit_one :
  r_out (rrun ZStrict (bit_provide true)) = OOk (BitEnt true 11 14).
Proof. vm_compute. reflexivity. Qed.

(** graph_test.go 8-78.  The test passes on a storage that accepts node 0. *)
Definition graph_test : prog _ :=
  r <- create_story 50 (lit "goes") (lit "a cat");;
  t1 <- get_object_and_property 50 r;;
  r2 <- add_remark_to_fact 50 r (lit "to play");;
  t2 <- get_object_and_property 50 r2;;
  r3 <- add_fact_to_story 50 r (lit "hides") (lit "the mouse");;
  t3 <- get_object_and_property 50 r3;;
  r' <- get_remark (get_identifier r);;
  s <- get_story 50 r';;
  Ret (t1, t2, t3, s).

Example test_graph :
  r_out (rrun ZNode graph_test) =
  OOk ((lit "goes", lit "a cat"), (lit "goes", lit "to play"),
       (lit "hides", lit "the mouse"), lit "goes a cat ").
Proof. vm_compute. reflexivity. Qed.

(** On a storage that does not know node 0, AddFactToStory fails. *)
Example test_graph_strict : r_out (rrun ZStrict graph_test) = OErr EStorage.
Proof. vm_compute. reflexivity. Qed.
