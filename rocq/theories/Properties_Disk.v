(** Incomplete files (C104, C105). *)
From Coq Require Import String.
From Verif Require Import Disk_witness.
Local Open Scope N_scope.

(** C104: an image whose file is incomplete.  [x] is the last intensity.  If at most
    the line feed at the end and all but the first digit of [x] are missing, the
    reader takes the file for an image, with the last intensity [x / 10 ^ k] if [k]
    digits are missing.  Otherwise it rejects the file. *)
Theorem C104_incomplete img txt kept lost before x :
  valid_image img -> consistent_image img -> width img * height img < 2 ^ 32 -> max_value img < 2 ^ 64 ->
  write_image [] (Some img) = Ok txt -> txt = kept ++ lost -> data img = before ++ [x] ->
  (max_value img <= 65536 -> len lost <= 1 \/ 10 ^ (len lost - 1) <= x ->
   reads_image kept (replaced_data img (before ++ [x / 10 ^ (len lost - 1)]))) /\
  (65536 < max_value img \/ 1 < len lost /\ x < 10 ^ (len lost - 1) -> rejects kept).
Proof. exact (cut_image img txt kept lost before x). Qed.
Print Assumptions C104_incomplete.

(** Hence not every incomplete file is rejected or read as the image. *)
Theorem C104_recognised_refuted : exists img img' kept lost, valid_image img /\ consistent_image img /\ lost <> [] /\
  write_image [] (Some img) = Ok (kept ++ lost) /\ img' <> img /\ reads_image kept img'.
Proof. exact cut_misread. Qed.
Print Assumptions C104_recognised_refuted.

Example C104_hypotheses : valid_image short_image /\ consistent_image short_image /\ width short_image * height short_image < 2 ^ 32 /\
  max_value short_image < 2 ^ 64 /\ write_image [] (Some short_image) = Ok (short_kept ++ short_lost) /\
  data short_image = [7] ++ [255] /\ max_value short_image <= 65536 /\ 10 ^ (len short_lost - 1) <= 255 /\ len short_lost = 3.
Proof. exact short_hypotheses. Qed.

(** C105: the application does not notice that the output file takes only some of the
    characters: apart from the missing characters everything is as usual. *)
Theorem C105_unnoticed b v srt w room p e :
  main_disk b v srt w room p e <-> exists e', main_with b v srt w p e' /\ e = cut_file room e'.
Proof. exact (main_cut b v srt w room p e). Qed.
Print Assumptions C105_unnoticed.

Theorem C105_reported_refuted : exists w o room path t txt, usable_files w /\ len t < len txt /\
  forall v srt, sorts srt ->
    (forall e, main_with plain v srt w (Parsed o) e <-> e = Ok (ends 0 None (Some (path, txt)))) /\
    (forall e, main_disk plain v srt w room (Parsed o) e <-> e = Ok (ends 0 None (Some (path, t)))).
Proof. exact disk_lost. Qed.
Print Assumptions C105_reported_refuted.

(** Everything is written if there is room for it. *)
Theorem C105_room b v srt w room p e :
  (forall path t x, e = Ok x -> written_file x = Some (path, t) -> len t <= room path) ->
  main_with b v srt w p e -> main_disk b v srt w room p e.
Proof. exact (disk_room b v srt w room p e). Qed.
Print Assumptions C105_room.

(** An incomplete disparity map is recognised when it is read, because the last
    disparity is 0: if more than the line feed at the end is missing, the file is
    rejected, and otherwise the map is read. *)
Theorem C105_maps b v srt w room o lpath rpath out pa e path t :
  sorts srt -> usable_files w -> all_paths o lpath rpath out -> chosen b (o_parallel o) = Ok pa ->
  (forall a l lev, pa = On a -> file_holds w lpath l -> option_number (width l) (o_levels o) lev -> lev <= width l -> addressable a l lev) ->
  main_disk b v srt w room (Parsed o) (Ok e) -> written_file e = Some (path, t) ->
  path = out /\ exists img txt, map_with pa v srt w o lpath rpath (Ok img) /\ write_image [] (Some img) = Ok txt /\
    t = firstn (N.to_nat (room out)) txt /\
    (max_value img <= 65536 -> len txt <= room out + 1 -> reads_image t img) /\
    (room out + 1 < len txt -> rejects t).
Proof. exact (disk_recognised b v srt w room o lpath rpath out pa e path t). Qed.
Print Assumptions C105_maps.

Example C105_hypotheses : usable_files wg /\ all_paths (og out_path) (lit "l.pgm") (lit "r.pgm") out_path /\
  chosen plain (o_parallel (og out_path)) = Ok OnCpu /\
  forall room v srt, sorts srt ->
    main_disk plain v srt wg room (Parsed (og out_path)) (Ok (ends 0 None (Some (out_path, firstn (N.to_nat (room out_path)) textg)))).
Proof. exact (conj wg_usable (conj (og_paths out_path) (conj disk_chosen disk_run))). Qed.
