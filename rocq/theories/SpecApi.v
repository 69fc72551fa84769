(** * Objects built through the public API. *)
From Verif Require Import Base ModelData ModelObject ModelWrapper Spec.

(** [built mem o]: [o] is obtained by constructing data nodes of the supported
    types and inserting complete trees into arrays and maps (of fewer than 2^64
    elements) whose pool is alive; [Clear] may be called at any time. *)
Inductive built (live : pool -> bool) (mem : memory) : obj -> Prop :=
| b_string s : built live mem (data_of_string s)
| b_cstr s : built live mem (data_of_cstr s)
| b_bytes s : built live mem (data_of_bytes s)
| b_num t n : num_ok t n -> built live mem (data_of_num t n)
| b_custom s : built live mem (data_of_custom s)
| b_view_string w s : read_view mem w = Ok s -> built live mem (data_view_of_string w)
| b_view_bytes w s : read_view mem w = Ok s -> built live mem (data_view_of_bytes w)
| b_view_num t n : num_ok t n -> built live mem (data_view_of_num t n)
| b_array p : built live mem (array_new p)
| b_map p : built live mem (map_new p)
| b_map_view p : built live mem (map_view_new p)
| b_clear o o' : built live mem o -> Container_Clear o = Ok o' -> built live mem o'
| b_array_insert a x a' : built live mem a -> built live mem x ->
    (forall n, w_Size a = Some n -> n + 1 < 2 ^ 64) ->
    Array_Insert live a x = Ok a' -> built live mem a'
| b_map_insert m k x m' : built live mem m -> built live mem x ->
    (forall n, w_Size m = Some n -> n + 1 < 2 ^ 64) ->
    Map_Insert live m k x = Ok m' -> built live mem m'
| b_map_view_insert m k s x m' : built live mem m -> built live mem x ->
    read_view mem k = Ok s ->
    (forall n, w_Size m = Some n -> n + 1 < 2 ^ 64) ->
    MapView_Insert live m k x = Ok m' -> built live mem m'.
