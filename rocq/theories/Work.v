(** Model of the work of the modes: /repo/src/app/src/app/prepare.cpp 22-56, include/app/prepare.hpp 39-235, src/app/network.cpp 20-115,
    include/app/network.hpp 40-535, src/app/match_cli.cpp 22-42, include/app/match.hpp 36-153, src/app/match.cpp 22-33, src/app/compare.cpp 34-132.

    A mode is the list of the steps it takes with options that have been corrected (Options.v).  A step may throw ([fails]); then the storages that
    are open are closed by their destructors.  The disk says which data a file has: of which storage, as a mapped image or as an archive, and
    whether all of it has been written; what the data are is modelled elsewhere (NetImport.v, Simplify.v, GraphHelper.v, SpatialIndex.v, Archive.v),
    the storages themselves in Storage.v.  [place] is the file that a name refers to in the folder of the network ([path / name], resolved by the
    operating system).  Not modelled: messages and times; growing a file, which closes it and opens it again by its name. *)
From Coq Require Import ZArith String.
From Verif Require Import Base Srs Options.
Local Open Scope string_scope.

(** the files of a network; the last three are exports *)
Inductive role := Graph | Tags | Index | GraphImport | TagsImport | IndexBuild | OsmVertices | OsmTags | NodesFile | EdgesFile | OsmFile.
Definition role_eqb (a b : role) : bool :=
  match a, b with
  | Graph, Graph | Tags, Tags | Index, Index | GraphImport, GraphImport | TagsImport, TagsImport | IndexBuild, IndexBuild
  | OsmVertices, OsmVertices | OsmTags, OsmTags | NodesFile, NodesFile | EdgesFile, EdgesFile | OsmFile, OsmFile => true
  | _, _ => false
  end.
(** options.cpp 674-740, 768-788 *)
Definition option_name (r : role) : string :=
  match r with
  | Graph => "graph-file" | Tags => "tags-file" | Index => "index-file" | GraphImport => "graph-import-file" | TagsImport => "tags-import-file"
  | IndexBuild => "index-build-file" | OsmVertices => "osm-vertices-file" | OsmTags => "osm-tags-file"
  | NodesFile => "export-nodes-csv-file" | EdgesFile => "export-edges-csv-file" | OsmFile => "export-network-osm-file"
  end.
Definition name (m : vm) (r : role) : string := str m (option_name r).
(** DESTROY_ON_CLOSE in network.hpp 40-440 *)
Definition temporary (r : role) : bool :=
  match r with GraphImport | TagsImport | IndexBuild | OsmVertices | OsmTags => true | _ => false end.

Inductive importer := OsmCar | OsmManual | ArcNode | Seattle | Melbourne | Giscup.
Inductive pass := Simplify | Unconnected | DuplicateNodes | DuplicateEdges | Compress | BuildIndices.
Inductive step := Directory | Create (r : role) | Destroy (r : role) | Keep (r : role) | Import (i : importer) | Run (p : pass) | Serialize (r : role) | Save (r : role).

Definition on (b : bool) (l : list step) : list step := if b then l else [].

(** *** prepare *)
Section Prepare.
  Variable m : vm.
  Variable c : prepare_conf.
  (** network.cpp 20-48, network.hpp 373-463: which storage is a file *)
  Definition mapped (r : role) : bool :=
    let '(g, i, t) := p_mapped c in
    let '(gi, ti, ib, ov, ot) := p_temporary c in
    match r with
    | Graph => g | Index => i | Tags => t | GraphImport => gi | TagsImport => ti | IndexBuild => ib | OsmVertices => ov | OsmTags => ot
    | NodesFile | EdgesFile | OsmFile => false
    end.
  Definition create (r : role) : list step := on (mapped r) [Create r].
  Definition close (r : role) : list step := on (mapped r) [if temporary r then Destroy r else Keep r].
  (** prepare.hpp 39-58; network.hpp 333-371: the tags first *)
  Definition import_osm : list step :=
    create OsmTags ++ create OsmVertices
    ++ (if String.eqb (str m "osm-profile") "car" then [Import OsmCar] else if String.eqb (str m "osm-profile") "manual" then [Import OsmManual] else [])
    ++ close OsmTags ++ close OsmVertices.
  (** 92-107 *)
  Definition execute_import : list step :=
    if String.eqb (p_format c) "osm" then import_osm
    else if String.eqb (p_format c) "arc-node" then [Import ArcNode]
    else if String.eqb (p_format c) "seattle" then [Import Seattle]
    else if String.eqb (p_format c) "melbourne" then [Import Melbourne]
    else if String.eqb (p_format c) "giscup" then [Import Giscup]
    else [].
  (** 109-150 *)
  Definition simplify : list step :=
    on (negb (String.eqb (p_simplify c) "none") && (String.eqb (p_simplify c) "all" || String.eqb (p_simplify c) "osm-aware")) [Run Simplify].
  Definition clean : list step :=
    simplify ++ on (flag m "remove-unconnected") [Run Unconnected] ++ on (p_duplicate_nodes c) [Run DuplicateNodes]
    ++ on (flag m "remove-duplicate-edges") [Run DuplicateEdges].
  (** 167-175, network.hpp 474-502 *)
  Definition serialize_one (r : role) : list step := on (negb (mapped r)) [Serialize r].
  Definition serialize : list step :=
    on (negb (mapped Tags) || negb (mapped Index) || negb (mapped Graph)) (serialize_one Tags ++ serialize_one Index ++ serialize_one Graph).
  (** 177-208 *)
  Definition save (r : role) : list step := on (negb (String.eqb (name m r) "")) [Save r].
  Definition export : list step := save NodesFile ++ save EdgesFile ++ save OsmFile.
  (** prepare.cpp 42-48, prepare.hpp 210-235; network.hpp 213-296 *)
  Definition prepare_steps : list step :=
    [Directory] ++ create TagsImport ++ create GraphImport
    ++ execute_import ++ clean
    ++ create Tags ++ create IndexBuild ++ create Index ++ create Graph
    ++ [Run Compress] ++ close GraphImport ++ close TagsImport
    ++ [Run BuildIndices] ++ serialize ++ export
    ++ close Index ++ close IndexBuild ++ close Graph ++ close Tags.
End Prepare.

(** *** the disk *)
Inductive form := Image | Archive | Text.
(** [Other]: of somebody else *)
Inductive content := Holds (r : role) (f : form) (complete : bool) | Other (n : nat).
Definition disk := string -> option content.
Definition put (d : disk) (p : string) (x : option content) : disk := fun q => if String.eqb q p then x else d q.

(** the steps that were taken, the step that threw, and what the disk became *)
Record report := mkReport { r_steps : list step; r_failed : option step; r_disk : disk }.
Section Disk.
  Variable place : role -> string.
  Variable fails : step -> bool.
  (** whether a file that could not be created is left behind: Storage.v, base_storage.hpp 119-129, graph_storage.hpp 204-222 *)
  Variable torn : role -> bool.
  (** what is stored in the image of a storage is complete; changes reach the file only as long as the name still refers to it *)
  Definition complete (r : role) (d : disk) : disk :=
    match d (place r) with
    | Some (Holds r' Image _) => if role_eqb r' r then put d (place r) (Some (Holds r Image true)) else d
    | _ => d
    end.
  Definition apply (s : step) (d : disk) : disk :=
    match s with
    | Directory | Keep _ | Import _ | Run Simplify | Run Unconnected | Run DuplicateNodes | Run DuplicateEdges => d
    | Create r => put d (place r) (Some (Holds r Image false))
    | Destroy r => put d (place r) None
    | Run Compress => complete Graph (complete Tags d)
    | Run BuildIndices => complete Index d
    | Serialize r => put d (place r) (Some (Holds r Archive true))
    | Save r => put d (place r) (Some (Holds r Text true))
    end.
  (** what a step that threw has done *)
  Definition apply_failed (s : step) (d : disk) : disk :=
    match s with
    | Create r => put d (place r) (if torn r then Some (Holds r Image false) else None)
    | Serialize r => put d (place r) (Some (Holds r Archive false))
    | Save r => put d (place r) (Some (Holds r Text false))
    | _ => d
    end.
  (** destructors do not throw *)
  Definition can_fail (s : step) : bool := match s with Destroy _ | Keep _ => false | _ => true end.
  Definition track (s : step) (open : list role) : list role :=
    match s with Create r => r :: open | Destroy r | Keep r => filter (fun x => negb (role_eqb x r)) open | _ => open end.
  Definition unwind (open : list role) (d : disk) : disk :=
    fold_left (fun d r => if temporary r then put d (place r) None else d) open d.
  Fixpoint exec (l : list step) (d : disk) (open : list role) (past : list step) : report :=
    match l with
    | [] => mkReport past None d
    | s :: r => if can_fail s && fails s then mkReport past (Some s) (unwind open (apply_failed s d))
                else exec r (apply s d) (track s open) (past ++ [s])
    end.
  (** prepare.cpp 22-56: [None]: files are missing *)
  Definition prepare (exists_file : string -> bool) (m : vm) (c : prepare_conf) (d : disk) : option report :=
    if forallb exists_file (strs m "file") then Some (exec (prepare_steps m c) d [] []) else None.
End Disk.

(** *** match *)
Inductive reader := ReadLine | ReadCsv | ReadGpx | ReadEdgeList | ReadSeattle.
(** [Start]: the files that the exporters open, and so empty *)
Inductive mstep := MDirectory | MOpen (r : role) | MLoad (r : role) | MStart (files : list string) | MRead (r : reader) (files : list string) | MStop | MJoin.
(** [std::filesystem::path::operator/] for a relative second path *)
Definition join_path (a b : string) : string := if String.eqb a "" then b else a ++ "/" ++ b.
Section Match.
  Variable m : vm.
  Variable c : match_conf.
  Definition m_mapped (r : role) : bool :=
    let '(g, i, t) := c_mapped c in match r with Graph => g | Index => i | Tags => t | _ => false end.
  Definition output_file : string := join_path (str m "output") (str m "filename").
  (** match.hpp 39-42, file_exporter.cpp 20-24: a folder cannot be opened *)
  Definition candidates_file : list string := if String.eqb (str m "candidates") "" then [] else [join_path (str m "output") (str m "candidates")].
  Definition when {A} (b : bool) (l : list A) : list A := if b then l else [].
  (** 60-72, network.hpp 298-330, 504-535 *)
  Definition open_one (r : role) : list mstep := when (m_mapped r) [MOpen r].
  Definition load_one (r : role) : list mstep := when (negb (m_mapped r)) [MLoad r].
  (** 126-143, match.cpp 22-33: the last two open the output once more *)
  Definition read_tracks : list mstep :=
    if flag m "read-line" then [MRead ReadLine []]
    else if String.eqb (c_type c) "csv" then [MRead ReadCsv []]
    else if String.eqb (c_type c) "gpx" then [MRead ReadGpx []]
    else if String.eqb (c_type c) "list" then [MRead ReadEdgeList [output_file]]
    else if String.eqb (c_type c) "seattle" then [MRead ReadSeattle [output_file]]
    else [].
  (** match_cli.cpp 27-36, match.hpp 145-153 *)
  Definition match_steps : list mstep :=
    when (negb (flag m "console")) [MDirectory]
    ++ open_one Tags ++ open_one Index ++ open_one Graph
    ++ when (negb (m_mapped Tags) || negb (m_mapped Index) || negb (m_mapped Graph)) (load_one Tags ++ load_one Index ++ load_one Graph)
    ++ [MStart (output_file :: candidates_file)] ++ read_tracks ++ [MStop; MJoin].
End Match.

(** *** compare: what is read and who throws *)
Inductive cstep := CDirectory | CStart (file : string) | CThrow | CTruth (r : reader) | CMatches (r : reader) | CFinish | CStop | CJoin.
Definition c_reader (ext : string) : list reader := if String.eqb ext "csv" then [ReadCsv] else if String.eqb ext "gpx" then [ReadGpx] else [].
(** compare.cpp 34-132 *)
Definition compare_steps (m : vm) (c : compare_conf) : list cstep :=
  when (negb (flag m "console")) [CDirectory] ++ [CStart (join_path (str m "output") (str m "filename"))]
  ++ (if negb (String.eqb (k_match_type c) "csv") && negb (String.eqb (k_match_type c) "gpx") then [CThrow]
      else if negb (String.eqb (k_compare_type c) "csv") && negb (String.eqb (k_compare_type c) "gpx") then [CThrow]
      else map CTruth (c_reader (k_compare_type c)) ++ map CMatches (c_reader (k_match_type c)) ++ [CFinish; CStop; CJoin]).
