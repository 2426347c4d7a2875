(** Moving the node table of the OpenStreetMap importer: [io/helper/osm_handler_helper.hpp] 62-75.

    The constructor and the assignment move the storage with the nodes and the tag helper; [_sort_vertices] (221) is not mentioned: it starts as
    [false] in a new helper and keeps its value in one that is assigned to. What is left in the source is not modelled, it is not used any more. *)
From Verif Require Import Base Osm.

Section OsmMove.
  Context {P : Type}.
  (** 62-64: the new helper *)
  Definition move_new (s : osm P) : osm P := mkOsm (o_vs s) false.
  (** 68-74: [s] is moved onto [t]; [this != &other] is assumed *)
  Definition move_onto (t s : osm P) : osm P := mkOsm (o_vs s) (o_sort t).
End OsmMove.
