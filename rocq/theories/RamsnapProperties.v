(** C32: packings and metadata stored as RAMSNAP. *)
From Coq Require Import ZArith List Bool Lia.
From Verif Require Import OptModel TextModel RamsnapModel RamsnapSpec RamsnapExamples RamsnapFinalProofs.
Import ListNotations.
Open Scope Z_scope.

(** Writing succeeds and the file is read back: the metadata, the box and all the shapes are the same. *)
Theorem C32_read_back : forall D (show : D -> list Z) scan zero hasVolume m box ss,
  exact_codec show scan -> clean_map m -> clean_packing box ss -> hasVolume box = true ->
  exists l, write D show m box ss = Some l /\ read D scan zero hasVolume l = Some (m, box, ss).
Proof. exact stored_file. Qed.
Print Assumptions C32_read_back.
Example C32_read_back_case : exists l, write bool bit_show some_map unit_bits some_shapes = Some l /\ read bool bit_scan false bit_volume l = Some (some_map, unit_bits, some_shapes).
Proof. exact (C32_read_back _ _ _ _ _ _ _ _ bit_codec some_map_clean some_packing_clean eq_refl). Qed.

(** A key with white space is refused when the file is written. *)
Theorem C32_key_refused : forall D (show : D -> list Z) m box ss,
  (exists k v c, In (k, v) m /\ In c k /\ is_space c = true) -> write D show m box ss = None.
Proof. exact key_refused. Qed.
Print Assumptions C32_key_refused.
Example C32_key_refused_case : write bool bit_show [([97; 32; 98], [55])] unit_bits some_shapes = None.
Proof. apply C32_key_refused. exists [97; 32; 98], [55], 32. split; [left; reflexivity|]. split; [right; left; reflexivity|reflexivity]. Qed.

(** A file of the old format, with three box heights, is read as the orthorhombic box. *)
Theorem C32_old_box : forall D (show : D -> list Z) scan zero hasVolume m a x y z ss,
  exact_codec show scan -> clean_map m -> clean_packing [x; zero; zero; zero; y; zero; zero; zero; z] ss ->
  hasVolume [x; zero; zero; zero; y; zero; zero; zero; z] = true -> storeAuxInfo m = Some a ->
  read D scan zero hasVolume (a ++ (show x ++ space :: show y ++ space :: show z ++ [newline]) ++ storeShapes D show ss) =
    Some (m, [x; zero; zero; zero; y; zero; zero; zero; z], ss).
Proof. exact old_file. Qed.
Print Assumptions C32_old_box.
Example C32_old_box_case : exists a, storeAuxInfo some_map = Some a /\
  read bool bit_scan false bit_volume (a ++ ([49] ++ space :: [49] ++ space :: [49] ++ [newline]) ++ storeShapes bool bit_show some_shapes) = Some (some_map, unit_bits, some_shapes).
Proof. eexists. split; [reflexivity|]. exact (C32_old_box _ _ _ _ bit_volume some_map _ true true true some_shapes bit_codec some_map_clean some_packing_clean eq_refl eq_refl). Qed.

(** A box without volume is refused when the file is read. *)
Theorem C32_flat_refused : forall D (show : D -> list Z) scan zero hasVolume m box ss l,
  exact_codec show scan -> clean_map m -> clean_packing box ss -> hasVolume box = false ->
  write D show m box ss = Some l -> read D scan zero hasVolume l = None.
Proof. exact flat_refused. Qed.
Print Assumptions C32_flat_refused.
Example C32_flat_refused_case : exists l, write bool bit_show some_map (repeat true 8 ++ [false]) some_shapes = Some l /\ read bool bit_scan false bit_volume l = None.
Proof.
  eexists. split; [reflexivity|]. refine (C32_flat_refused _ bit_show _ _ _ some_map (repeat true 8 ++ [false]) some_shapes _ bit_codec some_map_clean _ eq_refl eq_refl).
  split; [reflexivity|]. exact (proj2 some_packing_clean).
Qed.

(** A file written without metadata can never be read. *)
Theorem C32_empty_refuted : forall D (show : D -> list Z) scan zero hasVolume box ss l,
  exact_codec show scan -> write D show [] box ss = Some l -> read D scan zero hasVolume l = None.
Proof. exact none_lost. Qed.
Print Assumptions C32_empty_refuted.
Example C32_empty_refuted_case : exists l, write bool bit_show [] unit_bits some_shapes = Some l /\ read bool bit_scan false bit_volume l = None.
Proof. eexists. split; [reflexivity|]. exact (C32_empty_refuted _ bit_show _ _ _ unit_bits some_shapes _ bit_codec eq_refl). Qed.

(** Values which are empty, start with a space or have more lines are accepted when the file is written, and are not read back. *)
Theorem C32_values_refuted : forall v, In v [[]; [32; 97]; [97; 10; 98]] -> exists l,
  write bool bit_show [([107], v); ([108], [55])] unit_bits some_shapes = Some l /\
  read bool bit_scan false bit_volume l <> Some ([([107], v); ([108], [55])], unit_bits, some_shapes).
Proof. intros v [<-|[<-|[<-|[]]]]; (eexists; split; [reflexivity|discriminate]). Qed.
Print Assumptions C32_values_refuted.
