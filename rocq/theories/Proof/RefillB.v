(* Names of the lemmas about tables of any number of pages, for the proofs about restarts. *)
From Coq Require Import NArith List.
From Verif Require Import Model.Engine Spec.Engine Spec.Grow Proof.EngineL Proof.EngineW Proof.EngineR Proof.EngineP Proof.GrowL.
Notation minv := (g_minv false).
Notation sfine := (g_sfine false).
Notation tab := (g_tab false).
Notation einv := (g_einv false).
Notation mi_map := (g_mi_map false).
Notation mi_parts := (g_mi_parts false).
Notation sf_mem := (g_sf_mem false).
Notation sf_prev := (g_sf_prev false).
Notation sf_file := (g_sf_file false).
Notation sf_ids := (g_sf_ids false).
Notation tb_asc := (g_tb_asc false).
Notation tb_good := (g_tb_good false).
Notation follow_tab := (g_follow_tab false).
Notation perm_inv := (g_perm_inv false).
Notation put_inv := (g_put_inv false).
Notation sfine_mem_ids := (g_sfine_mem_ids false).
Notation sfine_with_mem := (g_sfine_with_mem false).
Notation tab_new := (g_tab_new false).
Notation refresh_part_spec := (g_refresh_part_spec false).
Notation apply_spec := (g_apply_spec false).
Notation begin_spec := (g_begin_spec false).
Notation look_at := (g_look_at false).
Notation look_out := (g_look_out false).
Notation merger_spec := (g_merger_spec false).
Notation sfine_rotate := (g_sfine_rotate false).
Notation scan_engine := (g_scan_engine false).
Notation visible_current := (g_visible_current false).
