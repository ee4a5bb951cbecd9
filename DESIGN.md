# Formal model of OpenSEMBA/mtln in Rocq

Scope: the Python package `/repo/python/src` (time-domain solver for multiconductor
transmission-line networks). The model lives in `rocq/theories`, the claims in
`properties.jsonl`, their status in `MANIFEST.json`, mutation experiments in
`seeded/LOG.jsonl`.

How to read it: start from a property in `properties.jsonl`, find its theorems in section 3,
open the `Prop*.v` file that states them, and read the `Spec*.v` file named in its header for
the vocabulary. The `Prop*.v` files contain statements, one-line proofs, `Print Assumptions`
and the examples that meet the hypotheses. Everything else is model or proof.

## 1. How the code is modelled

* **Numbers.** Python floats / numpy float64 are modelled by an *operations record*
  `num` (`Num.v`): a carrier with `+ - * /`, comparisons, `sqrt`, `exp`, `sin`, `cos`,
  `floor`, ... and **no laws**. All model functions are written once for an arbitrary
  `num`. Instances:
  * `NumR`: Coq's reals. Theorems about numeric identities, energy, exact solutions
    etc. are for this instance ("in exact arithmetic").
  * `NumQ`: normalised rationals, executable, used for witnesses and examples.
  * `NumF`: IEEE binary64 through the standard library's `SpecFloat` (no primitive
    floats), executable, used for floating-point counterexamples.
  Theorems that only concern bookkeeping, data flow or causality are stated for
  **every** `num` and therefore hold for binary64 as well.
* **Arrays.** numpy arrays are lists (lists of lists...). Reads use `nth` with default
  zero, but every Python operation that can raise on shape or range is modelled with an
  explicit error result, and theorems state the index ranges.
* **Exceptions** are values: `res A := Ok a | Err exn` (`Py.v`). A property that says "raises"
  is a theorem about `Err`, and which exception is part of the model.
* **Mutation/aliasing** is made explicit: methods take and return records. Where the
  Python code aliases an array (first frame of an un-resized probe; `i_prev = self.i`)
  the model has the same sharing.
* **Histories.** `history LA m0 m` (SpecLine.v): line `m` arises from the freshly constructed
  `m0` by any sequence of public method calls. `bundle_history`, `net_history`, `net_run` and
  `lines_net` are the same for bundles, circuits and networks of lines. `run_state LA m T k a`:
  `run_until(T)` called on `m` is in state `a` after `k` of its steps; `reaches` is the same for
  networks of lines. "For every history" in a property is an induction over these relations.
* **Uninitialised memory** (`np.empty`) is an arbitrary `junk` argument.
* **LAPACK** (`np.linalg.inv`, `np.linalg.solve`, `scipy.linalg.eigvals`) is an oracle
  record `lapack`. Theorems assume at most:
  * `lapack_ok`: a returned inverse is a two-sided inverse, a returned solution solves the
    system, the eigenvalue of a 1x1 matrix is its entry;
  * `lapack_complete` (totality theorems C84, C87-C89, and C16/C17 on constructor calls): an
    invertible matrix is inverted and a solvable regular system is solved;
  * `regular` (C13_network, C67): the solver refuses singular systems, as numpy does.
  `None` models `LinAlgError`. `LapackR.v` builds a real instance that satisfies all of these,
  used only in examples and refutations, so the assumptions are satisfiable.
* **Python functions of t** (sources) are Gallina functions `T -> T`.
* **Sympy** expressions are their values: functions of the five symbols x, y, z, v, t. The
  quadrature of the transversal field integrals is an arbitrary function argument.
* **Sets** of names (`list(set(...))`) are iterated in an arbitrary order given as a function.

## 2. Files

| file | contents |
|---|---|
| `Num.v`, `NumR.v`, `NumQ.v`, `NumF.v`, `Arr.v`, `Py.v` | arithmetic record and instances, arrays, Python control flow |
| `Waveforms.v`, `Utils.v`, `Probes.v`, `Dispersive.v`, `Line.v`, `Bundle.v`, `Networks.v`, `Mtln.v`, `Fields.v`, `Rotate.v`, `Extract.v`, `Parser.v`, `RunFields.v`, `Fitting.v` | the model, function by function, with `file:line` citations and the simplifications made |
| `Spec*.v` | the specifications used by the statements; definitions only |
| `Example*.v`, `SymExample.v`, `DispExample.v` | concrete lines, bundles, circuits and documents used by the examples |
| `Prop*.v` | the property theorems, `Print Assumptions` below each, and the examples that meet their hypotheses |
| all others | proofs |

### What is modelled and what is not

Every function of the package is listed here with the definitions that model it (a definition
counts when its comment cites lines of the function).

| file | function | lines | model |
|---|---|---|---|
| dispersive.py | Dispersive.__init__ | 5-72 | Dispersive.disp, Dispersive.disp_new, Dispersive.qget2, Dispersive.qget3 |
| dispersive.py | Dispersive.v_sum | 74-75 | Dispersive.qsum |
| dispersive.py | Dispersive.update_q3_phi_term | 77-79 | Dispersive.update_q3_phi_term |
| dispersive.py | Dispersive.update_phi | 81-87 | Dispersive.update_phi |
| dispersive.py | DispersiveConnector.__init__ | 92-93 | Dispersive.disp_new |
| dispersive.py | DispersiveConnector.add_dispersive_connector | 95-144 | Dispersive.add_dispersive_connector, Dispersive.assert_qzero, Dispersive.qsum3, Dispersive.rm_check, Dispersive.rm_poles |
| dispersive.py | TransferImpedance.__init__ | 148-149 | Dispersive.disp_new |
| dispersive.py | TransferImpedance.add_transfer_impedance | 151-221 | Dispersive.add_transfer_impedance, Dispersive.dir_in, Dispersive.dir_out, Dispersive.n_before, Dispersive.rm_f |
| dispersive.py | TransferImpedance.set_transfer_impedance_at_index | 223-293 | Dispersive.set_transfer_impedance_at_index, Dispersive.ti_set |
| jsonParser.py | Parser.__init__ | 12-35 | Parser.parse, Parser.parsed |
| jsonParser.py | Parser.run | 37-47 | Mtln.mtln, Mtln.parser_run, Parser.parse_and_run, RunFields.left_bundles, RunFields.left_networks |
| jsonParser.py | Parser.runWithExternalField | 49-61 | RunFields.parser_net, RunFields.parser_run_field |
| jsonParser.py | Parser.runWithLocalizedExternalField | 63-75 | RunFields.parser_run_local |
| jsonParser.py | Parser._getCoordinates | 77-83 | Parser.coordinate, Parser.coordinates, Parser.memZ |
| jsonParser.py | Parser._getLines | 86-97 | field `dc_lines` of `Parser.doc` |
| jsonParser.py | Parser._getNodes | 99-109 | `dc_nodes` |
| jsonParser.py | Parser._getSources | 111-115 | `dc_sources` |
| jsonParser.py | Parser._getCableEnds | 117-121 | `dc_ends` |
| jsonParser.py | Parser._getLumpedElements | 123-127 | `dc_lumped` |
| jsonParser.py | Parser._getFields | 129-133 | not modelled (the result is never used) |
| jsonParser.py | Parser._getProbes | 135-139 | `dc_probes` |
| jsonParser.py | Parser._getCables | 141-144 | `dc_cables` |
| jsonParser.py | Parser._getBundles | 146-149 | `dc_bundles` |
| jsonParser.py | Parser._getConnectors | 151-154 | `dc_conns` |
| jsonParser.py | Parser._getWires | 156-159 | `dc_wires` |
| jsonParser.py | Parser._getJunctions | 161-165 | `dc_juncts` |
| jsonParser.py | Parser._getTerminations | 167-171 | `dc_terms` |
| jsonParser.py | Parser._getTransferImpedance | 173-180 | Parser.getTransferImpedance, Parser.zt_of_cables, Parser.zt_of_wires |
| jsonParser.py | Parser._mapElIdsToNames | 183-189 | Parser.elem_names, Parser.name_of, Parser.vertex |
| jsonParser.py | Parser._f | 191-200 | not modelled (never called) |
| jsonParser.py | Parser._buildGraphFromConnections | 202-241 | Parser.add_leaves, Parser.add_to_graph, Parser.buildGraphFromConnections |
| jsonParser.py | Parser._findConductorNumberInLevel | 244-260 | Parser.conductors_before, Parser.findConductorNumberInLevel |
| jsonParser.py | Parser._addLumpedElement | 263-278 | Parser.addLumpedElement, Parser.build_line, Parser.max_level, Parser.names_at |
| jsonParser.py | Parser._addConnectorsResistance | 281-290 | Parser.addConnectorsResistance |
| jsonParser.py | Parser._setBundleTransferImpedance | 292-315 | Parser.edge_args, Parser.setBundleTransferImpedance, Parser.set_edge, Parser.set_end |
| jsonParser.py | Parser._buildBundles | 318-352 | Parser.buildBundles, Parser.build_levels, Parser.build_one, Parser.built |
| jsonParser.py | Parser._getBundleFromElemId | 354-358 | Parser.addProbes, Parser.add_probe_desc |
| jsonParser.py | Parser._addSources | 361-378 | Parser.addSources, Parser.add_source |
| jsonParser.py | Parser._getCableFromLineName | 380-385 | Parser.getCableFromLineName, Parser.getWireWithMaterialId |
| jsonParser.py | Parser._getWireWithMaterialId | 387-391 | Parser.getCableFromLineName, Parser.getWireWithMaterialId |
| jsonParser.py | Parser._buildMTLfromLine | 393-413 | Parser.buildMTLfromLine, Parser.line_params, Parser.wire |
| jsonParser.py | Parser._getListOfCoordinates | 415-421 | Parser.getListOfCoordinates |
| jsonParser.py | Parser._buildNetworks | 423-424 | Parser.parse |
| jsonParser.py | Parser._getNetworkTerminationList | 427-436 | Parser.add_group, Parser.getNetworkList, Parser.group_key |
| jsonParser.py | Parser._getLevelOfCable | 438-443 | Parser.getLevelOfCable, Parser.level_in |
| jsonParser.py | Parser._buildTerminations | 446-527 | Parser.add_entries, Parser.add_entry, Parser.add_rows, Parser.buildJunctions, Parser.buildTerminations |
| jsonParser.py | Parser._buildSource | 529-579 | Parser.buildSource, Parser.param |
| jsonParser.py | Parser._getTerminalSourceInNode | 581-587 | Parser.getTerminalSourceInNode, Parser.terminal_source_in |
| jsonParser.py | Parser._getNetworkJunctionList | 589-598 | Parser.getNetworkList |
| jsonParser.py | Parser._buildJunctions | 601-657 | Parser.join_row, Parser.junction_R, Parser.junction_network |
| jsonParser.py | Parser._getConnectorAndCableInNode | 659-666 | Parser.getConnectorAndCableInNode |
| jsonParser.py | Parser._JSONside2MTLNside | 668-672 | Parser.getConnectorAndCableInNode |
| jsonParser.py | Parser._getElementOfNode | 674-681 | Parser.element_of_node_in, Parser.getElementOfNode |
| jsonParser.py | Parser._getConnectorAndCableOnElementSide | 683-688 | Parser.getConnectorAndCableOnElementSide |
| jsonParser.py | Parser._getNodesInJunction | 691-696 | not modelled (never called) |
| jsonParser.py | Parser._getNodeCoordId | 698-703 | Parser.getNodeCoordId |
| jsonParser.py | Parser._getLineElemIdFromCoordId | 705-710 | Parser.getLineElemIdFromCoordId |
| jsonParser.py | Parser._getCableWithElemId | 712-717 | Parser.getCableWithElemId |
| jsonParser.py | Parser._getBundleWithCable | 719-726 | Parser.bundle_with |
| jsonParser.py | Parser._addProbes | 728-735 | Parser.addProbes |
| mtl.py | Field.__init__ | 26-29 | Fields.field |
| mtl.py | Field.compute_eL_at_segment | 31-34 | Fields.compute_eL_at_segment |
| mtl.py | PlaneWave.__init__ | 37-45 | Fields.planewave |
| mtl.py | PlaneWave.compute_directions | 49-52 | Fields.compute_directions, Fields.pw_e |
| mtl.py | PlaneWave.compute_velocities | 54-57 | Fields.compute_velocities |
| mtl.py | PlaneWave.rotate_to_segment | 59-78 | Rotate.heading, Rotate.rotate_to_segment, Rotate.rotation, Rotate.rx, Rotate.ry |
| mtl.py | MTL.__init__ | 86-170 | Line.geometry, Line.mtl_new, Probes.nearest |
| mtl.py | MTL.init_LC | 172-188 | Line.init_LC |
| mtl.py | MTL.init_RG | 190-216 | Line.init_RG, Line.init_rg1, Line.ztin |
| mtl.py | MTL.init_Zt | 219-243 | Line.init_Zt |
| mtl.py | MTL.compute_terminal_terms | 246-279 | Line.port_terms |
| mtl.py | MTL.get_phase_velocities | 282-286 | Line.get_phase_velocities |
| mtl.py | MTL.get_max_timestep | 288-289 | Line.get_max_timestep |
| mtl.py | MTL.set_time_step | 291-292 | Line.set_time_step |
| mtl.py | MTL.get_time_range | 294-295 | Line.time_range_len |
| mtl.py | MTL.update_probes | 300-302 | Line.update_probes |
| mtl.py | MTL.update_sources | 305-324 | Line.eval_fields, Line.fsrc, Line.inv, Line.mtl_step |
| mtl.py | MTL.update_sources | 327-346 | Line.eval_fields, Line.fsrc |
| mtl.py | MTL.update_lr_terms | 348-355 | Line.lr_F1, Line.lr_F2, Line.update_lr_terms |
| mtl.py | MTL.update_cg_terms | 357-369 | Line.cg_F1, Line.cg_F2, Line.node_width, Line.update_cg_terms |
| mtl.py | MTL.set_resistance_at_point | 372-373 | Line.set_resistance_at_point |
| mtl.py | MTL.set_resistance_in_region | 375-395 | Line.assert_ge, Line.region_assign, Line.set_resistance_in_region |
| mtl.py | MTL.add_conductance_at_point | 397-398 | Line.add_conductance_at_point |
| mtl.py | MTL.add_conductance_in_region | 400-415 | Line.add_conductance_in_region, Line.flat_argmin |
| mtl.py | MTL.advance_voltage | 418-421 | Line.advance_voltage, Line.interior_voltage |
| mtl.py | MTL.advance_current | 424-434 | Line.advance_current, Line.cell_current |
| mtl.py | MTL.add_voltage_source | 436-444 | Line.add_voltage_source |
| mtl.py | MTL.add_planewave | 460-469 | Fields.mtl_add_planewave, Fields.planewave_field |
| mtl.py | MTL.add_external_field | 471-506 | Fields.has_shape, Fields.light_cell, Fields.light_conductor, Fields.lit_cells, Fields.long_term |
| mtl.py | MTL.add_probe | 509-518 | Line.add_probe, Line.out_of_box |
| mtl.py | MTL.add_port_probe | 520-537 | Extract.add_port_probe |
| mtl.py | MTL.add_port_probes | 539-540 | Extract.add_port_probe |
| mtl.py | MTL.create_clean_copy | 542-547 | Line.copy_probe, Line.create_clean_copy |
| mtl.py | MTL.add_dispersive_connector | 549-555 | Line.mtl_add_dispersive_connector |
| mtl.py | MTL.advance_left_terminal | 558-566 | Line.advance_left_terminal, Line.port_voltage |
| mtl.py | MTL.advance_right_terminal | 569-577 | Line.advance_right_terminal |
| mtl.py | MTL.step | 580-589 | Line.mtl_step |
| mtl.py | MTL.run_until | 592-601 | Line.mtl_prepare, Line.run_until |
| mtl.py | MTLD.__init__ | 608-709 | Bundle.bd_lines, Bundle.mtld_new |
| mtl.py | MTLD.add_localized_longitudinal_field | 712-777 | Bundle.add_localized_longitudinal_field, Bundle.end_factors, Bundle.start_factors, Line.out_of_box |
| mtl.py | MTLD.add_probe | 779-802 | Bundle.bundle_add_probe, Bundle.probe_on_cells |
| mtl.py | MTLD.update_lr_terms | 805-817 | Line.update_lr_terms (same text) |
| mtl.py | MTLD.update_cg_terms | 819-833 | Line.update_cg_terms (same text) |
| mtl.py | MTLD.get_phase_velocities | 838-842 | Line.get_phase_velocities |
| mtl.py | MTLD.add_external_field | 846-879 | Fields.bundle_add_external_field, Fields.outer_conductors |
| mtl.py | MTLD.update_sources | 882-894 | Line.eval_fields |
| mtl.py | MTLD.update_sources | 897-910 | Line.eval_fields |
| mtl.py | MTLD.advance_voltage | 912-915 | Line.advance_voltage |
| mtl.py | MTLD.advance_current | 918-930 | Line.advance_current |
| mtl.py | MTLD.add_transfer_impedance | 933-942 | Bundle.bundle_add_transfer_impedance |
| mtl.py | MTLD.set_connector_transfer_impedance | 944-962 | Bundle.set_connector_transfer_impedance, Dispersive.set_transfer_impedance_at_index |
| mtl.py | MTLD.set_resistance_in_region | 964-979 | Bundle.bundle_set_resistance |
| mtl.py | MTLD.add_conductance_in_region | 981-997 | Bundle.bundle_add_conductance |
| mtln.py | MTLN.__init__ | 10-20 | Mtln.mtln_empty, Mtln.mtln_new |
| mtln.py | MTLN.add_bundle | 23-30 | Mtln.add_bundle |
| mtln.py | MTLN.add_network | 32-34 | Mtln.add_network |
| mtln.py | MTLN.add_networks | 36-38 | Mtln.add_networks |
| mtln.py | MTLN.get_time_range | 40-41 | Line.time_range_len |
| mtln.py | MTLN.compute_nw_v_terms | 43-45 | Mtln.mtln_run_until |
| mtln.py | MTLN.update_probes | 47-50 | Line.update_probes, Mtln.bundle_update_probes |
| mtln.py | MTLN.add_planewave | 52-54 | Fields.mtln_add_planewave |
| mtln.py | MTLN.add_external_field | 56-58 | Fields.mtln_add_external_field |
| mtln.py | MTLN.add_localized_external_field | 60-61 | Fields.mtln_add_localized_external_field |
| mtln.py | MTLN.run_until | 64-81 | Mtln.bundle_prepare, Mtln.mtln_prepare, Mtln.mtln_run_until, Mtln.override_dt, Mtln.set_all_dt |
| mtln.py | MTLN.update_networks_current | 83-85 | Mtln.mtln_step |
| mtln.py | MTLN.advance_networks_voltage | 87-91 | Mtln.advance_networks_voltage |
| mtln.py | MTLN.advance_bundles_voltage | 93-96 | Mtln.bundle_advance_voltage |
| mtln.py | MTLN.advance_bundles_current | 98-100 | Mtln.bundle_advance_current |
| mtln.py | MTLN.advance_time | 102-103 | Mtln.mtln_step |
| mtln.py | MTLN.step | 106-113 | Mtln.mtln_step |
| networkExtraction.py | extract_s_reciprocal | 7-24 | Extract.extract_s_reciprocal |
| networkExtraction.py | getSolvedProbesFromLine | 26-50 | Extract.getSolvedProbesFromLine |
| networkExtraction.py | extract_2p_network | 53-75 | Extract.assemble, Extract.extract_2p_network |
| networks.py | Network.__init__ | 16-49 | Networks.find_node, Networks.network_new, Networks.set_P, Networks.set_Q, Networks.set_stamps |
| networks.py | Network._get_number_of_state_vars_in_connector | 52-72 | Networks.state_vars |
| networks.py | Network._get_number_of_state_vars | 74-93 | not modelled (never called) |
| networks.py | Network._add_nodes_in_line | 95-109 | Networks.add_nodes_in_line |
| networks.py | Network._add_node | 111-134 | Networks.add_node, Networks.node |
| networks.py | Network.connect_to_ground | 136-143 | Networks.connect_to_ground |
| networks.py | Network.connect_to_ground_R | 145-152 | Networks.connect_to_ground (same body) |
| networks.py | Network.connect_to_ground_LCpRs | 154-167 | Networks.LCpRs_block, Networks.connect_to_ground_LCpRs |
| networks.py | Network.connect_to_ground_C | 169-176 | Networks.connect_to_ground_C |
| networks.py | Network.short_to_ground | 178-181 | Networks.short_to_ground |
| networks.py | Network.connect_nodes | 183-198 | Networks.connect_nodes, Networks.stamp |
| networks.py | Network.short_nodes | 200-206 | Networks.short_nodes |
| networks.py | Network.update_sources | 208-214 | Networks.eval_tfuns, Networks.nw_advance_voltage, Networks.w_sources, Networks.wsrc |
| networks.py | Network.advance_voltage | 216-236 | Networks.nw_advance_voltage, Networks.w_Is |
| networks.py | Network.update_voltages | 239-241 | Networks.nw_update_voltages, Networks.put_voltage |
| networks.py | Network.i_factor | 243-247 | Networks.i_factor |
| networks.py | Network.update_currents | 249-251 | Networks.nw_update_currents, Networks.read_current, Networks.set_wi |
| networks.py | Network.compute_v_terms | 253-265 | Networks.compute_v_terms, Networks.w_dxc |
| networks.py | NetworkD.__init__ | 272-273 | Networks.networkd, Networks.set_conns |
| networks.py | NetworkD.update_index_numbers | 275-280 | Networks.networkd, Networks.set_conns, Networks.shift_node, Networks.update_index_numbers |
| networks.py | NetworkD.update_sources | 282-284 | Networks.networkd, Networks.nwd_advance_voltage, Networks.nwd_compute_v_terms, Networks.nwd_update_currents, Networks.nwd_update_voltages |
| networks.py | NetworkD.advance_voltage | 286-288 | Networks.networkd, Networks.nwd_advance_voltage, Networks.nwd_compute_v_terms, Networks.nwd_update_currents, Networks.nwd_update_voltages |
| networks.py | NetworkD.update_voltages | 290-292 | Networks.networkd, Networks.nwd_advance_voltage, Networks.nwd_compute_v_terms, Networks.nwd_update_currents, Networks.nwd_update_voltages |
| networks.py | NetworkD.update_currents | 294-296 | Networks.networkd, Networks.nwd_advance_voltage, Networks.nwd_compute_v_terms, Networks.nwd_update_currents, Networks.nwd_update_voltages |
| networks.py | NetworkD.compute_v_terms | 298-300 | Networks.networkd, Networks.nwd_advance_voltage, Networks.nwd_compute_v_terms, Networks.nwd_update_currents, Networks.nwd_update_voltages |
| probes.py | Probe.__init__ | 6-17 | Probes.nearest, Probes.probe_new |
| probes.py | Probe.resize_frames | 19-22 | Probes.resize_frames |
| probes.py | Probe.update | 24-34 | Probes.probe_update |
| probes.py | Probe.__save_frame | 36-47 | Probes.pval, Probes.save_frame |
| probes.py | Port.__init__ | 51-55 | Extract.port |
| probes.py | Port.__get_v_i_fft | 57-67 | Extract.get_v_i_fft |
| probes.py | Port.getTerminal | 69-73 | Extract.getTerminal |
| probes.py | Port.get_incident_and_reflected_power_wave | 75-86 | Extract.get_incident_and_reflected_power_wave |
| utils.py | SFunction.__init__ | 4-5 | not modelled (class never used) |
| utils.py | SFunction.__call__ | 6-7 | not modelled (class never used) |
| utils.py | SFunction.__add__ | 8-11 | not modelled (class never used) |
| utils.py | add_t_functions | 13-25 | Utils.add_t_functions, Utils.tfun |
| utils.py | multiply | 27-29 | Utils.multiply |
| utils.py | point_in_line | 31-39 | Utils.point_in_line |
| waveforms.py | exp | 4-5 | Waveforms.wf_exp |
| waveforms.py | gaussian | 7-8 | Waveforms.gaussian |
| waveforms.py | gaussian_2 | 10-11 | Waveforms.gaussian_2 |
| waveforms.py | gaussian_2_sp | 13-15 | Waveforms.gaussian_2 (same formula) |
| waveforms.py | square_pulse | 17-18 | Waveforms.square_pulse |
| waveforms.py | triangle_pulse | 20-21 | Waveforms.triangle_pulse |
| waveforms.py | sin_sq_pulse | 23-24 | Waveforms.sin_sq_pulse |
| waveforms.py | sin_pulse | 26-27 | Waveforms.sin_pulse |
| waveforms.py | trapezoidal_wave_x_sp | 29-42 | Waveforms.trapezoidal_wave_sp |
| waveforms.py | trapezoidal_wave_sp | 44-57 | Waveforms.trapezoidal_wave_sp |
| waveforms.py | trapezoidal_wave | 59-67 | Waveforms.trapezoidal_wave |
| waveforms.py | ramp_pulse | 69-70 | Waveforms.ramp_pulse |
| waveforms.py | ramp_pulse_sp | 73-76 | Waveforms.ramp_pulse_sp |
| waveforms.py | ramp_pulse_x_sp | 78-81 | Waveforms.ramp_pulse_coord_sp |
| waveforms.py | ramp_pulse_y_sp | 83-86 | Waveforms.ramp_pulse_coord_sp |
| waveforms.py | ramp_pulse_z_sp | 88-91 | Waveforms.ramp_pulse_coord_sp |
| waveforms.py | double_exp | 94-95 | Waveforms.double_exp |
| waveforms.py | double_exp_sp | 97-99 | Waveforms.double_exp |
| waveforms.py | double_exp_xy_sp | 101-103 | Waveforms.double_exp_2sp |
| waveforms.py | double_exp_yz_sp | 105-107 | Waveforms.double_exp_2sp |
| waveforms.py | double_exp_xz_sp | 109-111 | Waveforms.double_exp_2sp |
| waveforms.py | null | 122-124 | the zero function |
| VF/utils.py | Zw | 7-8 | Fitting.Zw |
| VF/utils.py | Y_Zw | 10-11 | Fitting.Y_Zw |
| VF/utils.py | RLseriesDisp | 14-16 | Fitting.RLseriesDisp |
| VF/utils.py | Y_RLseriesDisp | 18-20 | Fitting.Y_RLseriesDisp |
| VF/utils.py | RLpar | 23-25 | Fitting.RLpar |
| VF/utils.py | RCpar | 27-30 | Fitting.RCpar |
| VF/utils.py | epsDebye | 32-37 | Fitting.epsDebye |
| VF/utils.py | epsDebyeErr | 39-46 | Fitting.epsDebyeErr |
| VF/utils.py | vf | 48-53 | Fitting.vf |
| VF/utils.py | vfi | 55-56 | Fitting.vfi |
| VF/utils.py | z | 58-60 | Fitting.z |
| VF/utils.py | serializeJSON | 62-107 | Fitting.serializeJSON, Fitting.serialize_entry |

Not modelled: matplotlib and print output; the contents of `sympy`, `scipy.integrate`, `igraph`,
`json`, `skrf` and `multipledispatch` beyond what is said above; reading of the JSON text (the model
starts from the parsed dictionary, as a typed record, so a missing mandatory key is only modelled
where a field is an `option`); the type checks on the name of a function's variable in `utils.py`;
overflow, NaN and infinity of numpy arithmetic except in the binary64 examples; warnings;
the driver scripts of `VF/` that read measurement files and call `skrf.VectorFitting`;
the Fortran sources in `/repo/fortran`.

## 3. Properties, methods and theorems

("any num" = proved without numeric laws, so also for floats; "R" = exact real arithmetic.)

| id | property | model and method | theorems (file) |
|---|---|---|---|
| C01 | run_until performs exactly floor(T/dt) steps | `run_until`, `time_range_len`; floor characterisation and induction on steps. Scope: real arithmetic. | C01_number_of_steps, C01_repeated_runs (`PropRun.v`) |
| C02 | set_time_step gives NDT steps exactly, but only in exact arithmetic | `set_time_step`; floor of an exact quotient; binary64 witness computed on `NumF`. Scope: real arithmetic for the positive half; IEEE binary64 (SpecFloat) for the refutation. | C02_exact_steps, C02_binary64_refuted (`PropRun.v`) |
| C03 | A probe present at run_until records every step exactly once, in order | `Probes.v` with live views; invariant over update sequences; witness for the live view. Scope: any arithmetic; C03_stamps and C01 give the clock in real arithmetic. | C03_every_step_recorded, C03_stamps (`PropRun.v`) |
| C04 | Frames appended past the allocated length are kept, except the very first one of a never-resized probe | `Probes.v` with live views; invariant over update sequences; witness for the live view. Scope: any arithmetic; the witness is computed in exact rationals. | C04_later_frames_appended, C04_first_frame_is_live, C04_immutability_refuted (`PropRun.v`) |
| C05 | Probes and sources attach to the nearest node, first one on ties | `nearest`; induction on the node list. | C05_nearest_node, C05_probe_node, C05_source_node (`PropStep.v`) |
| C06 | MTL.add_probe accepts exactly the axis-aligned box between first and last node | `add_probe`, `point_in_line`; geometry, Cauchy-Schwarz; witnesses. Scope: any arithmetic for the exact condition; reals for increasing and decreasing lines. | C06_rejected_iff_outside, C06_otherwise_accepted, C06_increasing_line_accepts_nodes, C06_decreasing_line_rejects_all (`PropGeom.v`) |
| C07 | MTLD.add_probe accepts every point of the line and also a phantom cell past its end | `add_probe`, `point_in_line`; geometry, Cauchy-Schwarz; witnesses. Scope: real numbers; the outermost line of the bundle is built with equal divisions. | C07_accepted_iff, C07_cell_points_accepted, C07_beyond_the_end_accepted, C07_probe_reads_closest_node (`PropGeom.v`) |
| C08 | An unknown probe type is only detected when stepping | `Probes.v` with live views; invariant over update sequences; witness for the live view. Scope: any arithmetic. | C08_any_type_accepted, C08_detected_when_stepping, C08_known_types_never_raise (`PropRun.v`) |
| C09 | Each step satisfies the discretised telegrapher's voltage equation | Line step with the LAPACK oracle; multiply by the matrix that was inverted. | C09_voltage_equation (`PropStep.v`) |
| C10 | Each step satisfies the discretised telegrapher's current equation | Line step with the LAPACK oracle; multiply by the matrix that was inverted. | C10_current_equation, C10_plain_current_equation (`PropStep.v`) |
| C11 | Terminals obey the Thevenin half-cell equation | Line step with the LAPACK oracle; multiply by the matrix that was inverted. Scope: for lines whose time step and end conductance are those of the construction; C32 covers the other lines. | C11_left_terminal, C11_right_terminal, C11_short_circuit_left, C11_short_circuit_right (`PropStep.v`) |
| C12 | Superposition | Two-run linearity of one step, induction on steps. Scope: real arithmetic; dispersive connector memory included; all three runs are assumed not to raise. | C12_superposition, C12_sources (`PropSuper.v`) |
| C13 | Quiescence | Zero state and drive are kept by every step; superposition of the run with itself for networks. Scope: a line, with any sequence of step() and run_until() calls (C13_line), and a network of lines after any number of steps of a run (C13_network: the solver refuses singular systems; C13_network_rc: circuits of resistors and capacitors); new lines, bundles, circuits and networks of lines are at rest. | C13_line, C13_new_line (`PropSuper.v`); C13_network, C13_network_rc, C13_network_run, C13_new_bundle, C13_new_circuit, C13_new_network (`PropSuperNet.v`) |
| C14 | Disturbances travel at most one cell per step | Agreement of two runs on a shrinking interval; induction on steps. Scope: any arithmetic. | C14_window, C14_source (`PropCone.v`) |
| C15 | Sources cannot act before their sampling instant (causality with one step of delay) | Agreement of two runs on a shrinking interval; induction on steps. Scope: real arithmetic. | C15_causality, C15_causality_all (`PropRun.v`) |
| C16 | Exact bounce diagram on the lossless single-conductor line | Refinement of the one-conductor line to the bounce-diagram recursion. Scope: real arithmetic; LAPACK assumed correct, and complete for the version stated on constructor calls. | C16_bounce_diagram, C16_any_uniform_line, C16_diagram_exists, C16_diagram_unique (`PropBounce.v`) |
| C17 | A matched lossless line is a pure delay | Refinement of the one-conductor line to the bounce-diagram recursion. Scope: real arithmetic; LAPACK assumed correct and complete. | C17_pure_delay (`PropBounce.v`) |
| C18 | Energy never grows | Summation by parts; exact balance per step, telescoped over a run. Scope: real arithmetic; LAPACK assumed correct; lines without dispersive connectors and without incident field (the balance is an exact identity per step and over whole runs). | C18_energy_balance, C18_energy_never_grows, C18_losses_nonneg, C18_whole_run, C18_weights (`PropEnergy.v`) |
| C19 | The default time step is stable | The energy is a positive definite form under the Courant condition, so runs stay bounded. Scope: real arithmetic; single-conductor lines at any step up to the default one, and lines of any number of conductors when the step satisfies the cell-wise Courant condition. | C19_bounded_for_ever, C19_margin, C19_many_conductors (`PropEnergy.v`) |
| C20 | Mirror symmetry | A step is the only solution of its equations; the image of a run solves them. Scope: real arithmetic; LAPACK assumed correct; lines without dispersive connectors, both built with the same time step. | C20_mirror (`PropSym.v`) |
| C21 | Uncoupled conductors do not interact | A step is the only solution of its equations; the image of a run solves them. Scope: real arithmetic; LAPACK assumed correct; lines without dispersive connectors; the single-conductor line has the same time step now and at construction (the code's default steps differ when the velocities differ). | C21_uncoupled (`PropSym.v`) |
| C22 | Relabelling conductors relabels the result | A step is the only solution of its equations; the image of a run solves them. Scope: real arithmetic; LAPACK assumed correct; lines without dispersive connectors, both built with the same time step. | C22_relabel (`PropSym.v`) |
| C23 | Runs compose | Induction on the number of steps; the coefficients do not change between runs. Scope: any arithmetic. | C23_second_run, C23_one_long_run, C23_exact_durations, C23_prepare_idempotent (`PropRun.v`) |
| C24 | Only sources at the two end nodes act | Agreement of two runs on a shrinking interval; induction on steps. Scope: any arithmetic. | C24_interior_source_ignored, C24_source_replaced (`PropRun.v`) |
| C25 | create_clean_copy resets the fields and clock but keeps everything else | Simulation between the copied and the original line. Scope: any arithmetic for the reset and the kept history; reals for the equality of runs. | C25_copy_is_reset, C25_copy_runs_like_the_original, C25_copy_keeps_dispersive_history (`PropGeom.v`) |
| C26 | Geometry of a line built with equal divisions per segment | Constructor loops with junk memory; induction on segments; witnesses. Scope: real numbers; one theorem for every vertex list and division count. | C26_geometry (`PropGeom.v`) |
| C27 | Unequal divisions per segment break the geometry | Constructor loops with junk memory; induction on segments; witnesses. Scope: IndexError criterion for every arithmetic; misplaced vertices for every unequal list that the constructor accepts; computed [3,2] case. | C27_index_error, C27_misplaced_vertex, C27_3_2_refuted (`PropGeom.v`) |
| C28 | Constructor argument checks for L and C | Case analysis on the argument checks. Scope: any arithmetic. | C28_accepted, C28_rejected (`PropGeom.v`) |
| C29 | Constructor argument checks for R and G | Case analysis on the argument checks. Scope: any arithmetic. | C29_accepted, C29_rejected (`PropGeom.v`) |
| C30 | Terminal impedances become diagonal matrices | Case analysis on the argument checks. Scope: reals for the stored matrices, any arithmetic for the rejections. | C30_diagonal, C30_mixed_rejected, C30_other_shapes_rejected (`PropGeom.v`) |
| C31 | Default time step | Default step from the eigenvalue oracle; terminal terms as functions of the construction-time values. Scope: real numbers, LAPACK assumed correct. | C31_default_step, C31_courant (`PropGeom.v`) |
| C32 | Changing the time step after construction leaves the terminations at the old one | Default step from the eigenvalue oracle; terminal terms as functions of the construction-time values. | C32_terminals_keep_old_step, C32_equation_broken, C32_set_time_step_refuted, C32_no_capacitance_agrees (`PropStep.v`) |
| C33 | What set_resistance_in_region writes | Python slicing of regions; exact frame characterisation. Scope: real numbers; lines and bundles. | C33_one_row_of_one_cell, C33_otherwise_raises, C33_point_conductor_0, C33_point_other_conductors (`PropGeom.v`); C33_bundle_one_row_of_one_cell, C33_bundle_otherwise_raises, C33_bundle_accepts (`PropRegion.v`) |
| C34 | MTL.add_conductance_in_region ignores the position on z-aligned lines | Python slicing of regions; exact frame characterisation. Scope: real numbers; lines and bundles. | C34_position_ignored, C34_point_conductor_0, C34_point_other_conductors, C34_bundle_uses_closest_node (`PropGeom.v`); C34_bundle_one_row_of_one_node, C34_bundle_otherwise_raises, C34_bundle_accepts (`PropRegion.v`) |
| C35 | square_pulse and triangle_pulse have support [0,x0] and stay within [0,A] | Real analysis of the formulas. Scope: real numbers; square and triangle pulse. | C35_square_pulse, C35_triangle_pulse (`PropWave.v`) |
| C36 | ramp_pulse is a ramp then a plateau, except at the corner where it doubles | Real analysis of the formulas. Scope: real numbers; the doubled corner is part of the statement. | C36_ramp_shape, C36_ramp_bounded, C36_ramp_monotone, C36_corner_refuted (`PropWave.v`) |
| C37 | trapezoidal_wave is periodic and within [0,A] except at its two upper corners | Real analysis of the formulas. Scope: real numbers; numeric and symbolic variants, the doubled corners are part of the statement. | C37_period, C37_every_time_has_a_phase, C37_shape, C37_bounded, C37_symbolic_shape (`PropWave.v`) |
| C38 | sin_sq_pulse, gaussian, gaussian_2 and exp have the expected bounds and support | Real analysis of the formulas. Scope: real numbers. | C38_sin_sq_pulse, C38_gaussian, C38_gaussian_2, C38_exp (`PropWave.v`) |
| C39 | add_t_functions and multiply are pointwise | Real analysis of the formulas. Scope: pointwise over the reals; the integer rule and multiply for every arithmetic. | C39_add_pointwise, C39_add_commutes, C39_add_associates, C39_two_integers, C39_multiply (`PropWave.v`) |
| C40 | point_in_line | `add_probe`, `point_in_line`; geometry, Cauchy-Schwarz; witnesses. Scope: real numbers; includes the witness family for short segments. | C40_segment_accepted, C40_accepted_points, C40_short_segments_refuted (`PropWave.v`) |
| C41 | Dispersive connector coefficients are the exact piecewise-linear convolution weights | Integrals by antiderivatives (derivatives of the standard library), no further axioms. Scope: real arithmetic; the constant and proportional parts of the stored entry are in C47. | C41_connector_weights, C41_weights (`PropDisp.v`) |
| C42 | The stored dispersive history uses the new current twice | Memory recursion of one cell, induction on steps. Scope: real arithmetic; lines and bundles. | C42_line, C42_bundle, C42_intended_refuted (`PropDisp.v`) |
| C43 | A transfer impedance with direction 'both' is silently ignored | Invariants of the arrays under every update; witnesses. Scope: any arithmetic. | C43_both_is_ignored, C43_both_is_accepted (`PropDisp.v`) |
| C44 | A directional transfer impedance couples exactly the listed conductor pairs | Invariants of the arrays under every update; witnesses. Scope: any arithmetic. | C44_couples_listed_pairs, C44_connector_replaces, C44_levels_must_be_adjacent, C44_accepted (`PropDisp.v`) |
| C45 | A one-directional transfer impedance with poles has no memory | Invariants of the arrays under every update; witnesses. Scope: real arithmetic; lines of the bundle without dispersive elements of their own. | C45_one_way_has_no_memory (`PropDisp.v`) |
| C46 | An all-zero transfer impedance is a no-op | Invariants of the arrays under every update; witnesses. Scope: any arithmetic, and the version stated on zero real coefficients. | C46_null_model, C46_zero_model (`PropDisp.v`) |
| C47 | At most one dispersive connector per conductor and cell; none at the last node | Invariants of the arrays under every update; witnesses. Scope: any arithmetic; the version over arbitrary later calls is for real numbers. | C47_connector_entry, C47_not_at_the_last_node, C47_not_outside, C47_only_on_a_free_entry, C47_never_twice, C47_accepted (`PropDisp.v`) |
| C48 | Bundle assembly is block diagonal | Entries of the block-diagonal matrices by induction on the lines. Scope: any arithmetic; the time step and the equality of nodes for real numbers. | C48_block_diagonal, C48_rows, C48_rows_distinct, C48_counts, C48_smallest_step, C48_common_nodes, C48_accepted_iff, C48_rejected_with (`PropBundle.v`) |
| C49 | Lines in a bundle without transfer impedance do not interact | Uniqueness of the step's solution; simulation of the bundle by the line alone. Scope: real arithmetic; LAPACK assumed correct; the line's cell lengths equal the outermost line's (equal divisions). | C49_line_as_if_alone (`PropBundle.v`) |
| C50 | Longitudinal field sources accumulate | Accumulation law for every call; fractions of covered cells on straight bundles. Scope: any arithmetic for accumulation; straight bundles over the reals for the fractions. | C50_accumulates, C50_fraction_of_the_cell, C50_fraction_range, C50_on_nodes, C50_accepted, C50_end_in_last_half_cell_raises (`PropBundle.v`) |
| C51 | The network step satisfies the discretised Kirchhoff current law | The solved system expanded into the node law, for every history of circuit calls. Scope: For every network reached by any history of calls whose last circuit operation was computing its terms, and every successful solve. | C51_kirchhoff, C51_states (`PropNet.v`) |
| C52 | Resistor stamps between nodes conserve current and are passive | Stamps as quadratic forms; induction over the list of branches. Scope: Symmetry, zero row sums, negative semidefinite form and order independence for every list of branches; plus exactly when the calls are accepted. | C52_passive, C52_order, C52_accepted (`PropNet.v`) |
| C53 | connect_to_ground overwrites, so call order matters | Exact effect of each call on the stamps. Scope: Overwriting, both orders and grounding twice; plus the consequence that branch-then-ground with Rg>R is not passive. | C53_overwrites, C53_branch_then_ground, C53_ground_then_branch, C53_ground_twice, C53_not_passive (`PropNet.v`) |
| C54 | Two sourced branches on one node interfere | Exact effect of each call on the stamps. Scope: Source currents of one branch and of two branches sharing a node (both orientations); superposition of branches refuted. | C54_one_source, C54_two_sources, C54_opposed, C54_superposition_refuted (`PropNet.v`) |
| C55 | A source to ground with zero resistance fails | Exact effect of each call on the stamps. Scope: connect_to_ground and unknown nodes: for every arithmetic (law-free); when connect_to_ground_LCpRs is accepted: over the reals. | C55_zero_with_source, C55_zero_alone, C55_unknown, C55_series, C55_series_unknown (`PropNet.v`) |
| C56 | The series-R parallel-LC termination is not passive | The stamped equations compared with those of the circuit; growing solutions of the reversed one. Scope: The stamped state equations are those of the circuit run backwards in time; the true circuit dissipates, the reversed one has unbounded solutions for every h < l/r, h < r c. | C56_reversed, C56_circuit_dissipates, C56_reversed_grows (`PropNet.v`) |
| C57 | Node bookkeeping | Frame conditions; invariants of node numbers over histories. Scope: For every description and every later history; acceptance exactly characterised. | C57_nodes, C57_state_variables, C57_numbering, C57_accepted, C57_line_ends (`PropNet.v`) |
| C58 | Network and line exchange only the mapped end values | Frame conditions; invariants of node numbers over histories. Scope: Frame condition for every arithmetic, totality iff every node resolves, sign of the current over the reals. | C58_voltages, C58_voltages_total, C58_currents, C58_currents_total (`PropNet.v`) |
| C59 | Index shifting is applied once per registration | Row of a node as a function of the registrations. Scope: Row after k registrations for every k; right exactly when k = 1 or the level offset is 0. | C59_registered, C59_level_0 (`PropNet.v`) |
| C60 | Lines sharing a level collide | Row of a node as a function of the registrations. Scope: The second line of a level is mapped to the rows of the first, for every bundle, network and conductor. | C60_collide (`PropNet.v`) |
| C61 | A resistively terminated single-line network equals the stand-alone line | Uniqueness of the end voltages (regular port matrices) and of the step; induction on steps; refutation on a concrete run. Scope: SpecSolo.soloed is the network of lines with one line grounded at both ends through the line's own terminal impedances and sources; plain_line: at rest, diagonal non-zero terminals, no fields or dispersive elements. C61_same: identical times, voltages and currents after any number of steps when the end nodes carry no conductance (the inside may). C61_conductance: with conductance there they agree over a step only if it carries no current; C61_conductance_refuted: any g>0 line driven by a constant source differs after one step (finding). | C61_same, C61_conductance, C61_conductance_refuted (`PropSolo.v`) |
| C62 | Bundle registration | Frame conditions; permutation of dictionaries; any number of steps. Scope: For every list of bundles and every later history; the 1e10 initial value is part of the statement. | C62_accepted, C62_duplicate, C62_order, C62_add, C62_unique, C62_smallest_step, C62_large_steps_ignored (`PropMtln.v`) |
| C63 | An end attached to no network never changes | Frame conditions; permutation of dictionaries; any number of steps. Scope: For every reachable network of lines and every arithmetic. | C63_end_kept, C63_run_end (`PropMtln.v`) |
| C64 | Order of bundles and networks is irrelevant | Frame conditions; permutation of dictionaries; any number of steps. Scope: For every permutation of bundles and of networks with disjoint ends, every arithmetic, any number of steps. | C64_run, C64_whole_run, C64_same, C64_built (`PropMtln.v`) |
| C65 | Bundles with different own time steps are marched inconsistently | Telegrapher's equations with explicit step; refutation on a concrete run. Scope: Telegrapher's equations with an explicit step; with the own step otherwise; inconsistent unless frozen; a concrete run refutes the network's step. | C65_explicit_step, C65_own_step, C65_inconsistent, C65_refuted (`PropMtln.v`) |
| C66 | Current probe stamps in a network keep the construction-time step | Frame conditions; permutation of dictionaries; any number of steps. Scope: Frames for every arithmetic, stamps over the reals. | C66_frames, C66_stamps, C66_probe_step (`PropMtln.v`) |
| C67 | Superposition of the whole network | Three-run linearity of bundles and circuits; regularity of the solver, or positive definiteness for RC circuits. Scope: any circuits if the linear solver refuses singular systems (as numpy does), circuits of resistors and capacitors without that assumption; C67_calls and C67_built: how combined networks arise from the API. | C67_superposition, C67_superposition_rc, C67_run, C67_calls, C67_built (`PropSuperNet.v`) |
| C68 | Plane-wave directions are a right orthonormal pair | Trigonometric identities. Scope: All angles and speeds; the slowness and the field value need a direction without zero components (otherwise the code divides by zero). | C68_orthonormal, C68_slowness, C68_travels, C68_value, C68_speed, C68_networks (`PropFields.v`) |
| C69 | rotate_to_segment aligns the segment with +z only for segments going up | Trigonometric identities. Scope: All segments, over the reals; segments along x give nan. Also: the polarisation angle is not rotated and one azimuth sign is lost (refutations). | C69_isometry, C69_up, C69_down, C69_along_x, C69_wave, C69_polarization_refuted (`PropFields.v`) |
| C70 | Power waves of a port | Discrete Fourier sums; column structure of the assembled matrix. Scope: waves in terms of the centred DFT of the recorded samples; frequencies; zero reference impedance rejected; ports at a 3-vector position never give waves (finding). | C70_waves, C70_frequencies, C70_zero_rejected, C70_vector_position (`PropExtract.v`) |
| C71 | S-parameter extraction assembles columns from the driven port | Discrete Fourier sums; column structure of the assembled matrix. Scope: column structure for any pair of solved runs; index swap; through the public entry point extraction always raises (getSolvedProbesFromLine is modelled as the AttributeError it raises). | C71_columns, C71_swap, C71_entry_point, C71_port_probe (`PropExtract.v`) |
| C72 | Nested cables become a tree of levels | Induction over nested structures and lists. Scope: every document and nesting; the tree statement needs that no element is listed twice. | C72_vertices_and_edges, C72_tree, C72_accepted (`PropParser.v`) |
| C73 | Conductor number inside a level | Induction over nested structures and lists. Scope: every listing order of a set that lists each member once; lines are found when cable names are unique. | C73_row, C73_found, C73_coupling (`PropParser.v`) |
| C74 | Line ends are found by coordinate id | Induction over nested structures and lists. Scope: every list of lines; an empty coordinate list before the wanted line raises IndexError. | C74_first_line, C74_none, C74_raises, C74_later_never (`PropParser.v`) |
| C75 | Networks at the same coordinate and level: only the last survives | Exact characterisation of what is built; computed documents for the refutations. Scope: partition for every arithmetic; groups are exactly the terminations at one point over the reals. | C75_partition, C75_accepted, C75_groups, C75_last_termination, C75_last_junction, C75_first_lost (`PropParser.v`) |
| C76 | Lists of connectors are indexed by conductor number | Exact characterisation of what is built; computed documents for the refutations. Scope: calls made for each row; own entry exactly in conductor order; a two-node document with the source on the wrong node. | C76_termination, C76_own_entry, C76_in_order, C76_swapped_refuted (`PropParser.v`) |
| C77 | Lumped elements: all cables must have one or none may | Exact characterisation of what is built; computed documents for the refutations. Scope: line level and document level. | C77_missing, C77_first, C77_document (`PropParser.v`) |
| C78 | Unknown source types are not zero sources | Exact characterisation of what is built; computed documents for the refutations. Scope: all type strings; parameters are looked up by name when the function is called. | C78_unknown, C78_unknown_raises, C78_known, C78_missing_parameter (`PropParser.v`) |
| C79 | A second external field replaces the first | Frame conditions on the stored field functions; refutations over the reals. Scope: Any arithmetic and quadrature for what is stored and replaced; refutations of superposition and of the last node's position over the reals. | C79_arrays, C79_line, C79_bundle, C79_line_replaces, C79_bundle_replaces, C79_line_empty, C79_bundle_end, C79_accepted, C79_superposition_refuted, C79_last_node_refuted (`PropFields.v`) |
| C80 | Networks ignore fields added to bundles after their construction | Frame conditions on the stored field functions; refutations over the reals. Scope: Field fixed at construction for every history; the networks' part of a step is blind to the bundles. | C80_field_at_construction, C80_blind (`PropNet.v`) |
| C81 | The number of poles of a distributed transfer impedance must be 1 or the number of cells | Invariants of the arrays under every update; witnesses. Scope: any arithmetic. | C81_other_pole_counts_raise, C81_one_pole_per_cell (`PropDisp.v`) |
| C82 | Pulses with a spatial shift: values outside their support | Real analysis of the formulas. Scope: real numbers. | C82_shape, C82_negative_before_start (`PropWave.v`) |
| C83 | Two connectors with different numbers of poles in one cell break the run | Invariants of the arrays under every update; witnesses. Scope: any arithmetic. | C83_pole_counts_clash (`PropDisp.v`) |
| C84 | A physical line never raises | Diagonally dominant and positive definite matrices are invertible, so no call raises. Scope: for several conductors the eigenvalues LAPACK returns for L*C are assumed to be eigenvalues (real_eigen). | C84_run_never_raises, C84_single_conductor_line, C84_coupled_lines (`PropStep.v`) |
| C85 | Dispersive coefficients keep the construction-time step | Memory recursion of one cell, induction on steps. Scope: real arithmetic. | C85_connectors_keep_the_first_step (`PropDisp.v`) |
| C86 | A one-pole connector is counted q times next to a q-pole connector | Memory recursion of one cell, induction on steps. Scope: real arithmetic. | C86_memory_counted_q_times (`PropDisp.v`) |
| C87 | A physical line with passive connectors never raises | Diagonally dominant and positive definite matrices are invertible, so no call raises. Scope: real arithmetic; LAPACK assumed complete. | C87_passive_connectors_never_raise (`PropDisp.v`) |
| C88 | A network of resistors and capacitors never raises | Diagonally dominant and positive definite matrices are invertible, so no call raises. Scope: With a LAPACK that finds a solution when there is one. | C88_never_raises, C88_calls_accepted (`PropNet.v`) |
| C89 | A network of physical lines joined by resistors and capacitors runs without raising | Diagonally dominant and positive definite matrices are invertible, so no call raises. Scope: With a LAPACK that finds a solution when there is one. | C89_never_raises, C89_bundles (`PropMtln.v`) |
| C90 | Energy of the waves of a port (Parseval) | Discrete Fourier sums; column structure of the assembled matrix. Scope: Parseval for the centred DFT of any length. | C90_energy (`PropExtract.v`) |
| C91 | A shield must have a transfer impedance | Exact characterisation of what is built; computed documents for the refutations. Scope: every document. | C91_not_read, C91_raises, C91_none (`PropParser.v`) |
| C92 | Nodes of terminations and junctions are placed by their coordinate | Exact characterisation of what is built; computed documents for the refutations. Scope: every termination and junction that is accepted. | C92_termination, C92_junction (`PropParser.v`) |
| C93 | Some terminations are silently left open | Exact characterisation of what is built; computed documents for the refutations. Scope: rows and whole terminations. | C93_one_node, C93_several_nodes, C93_termination (`PropParser.v`) |
| C94 | Junctions only see resistors | Exact characterisation of what is built; computed documents for the refutations. Scope: over the reals (0 + 0 = 0). | C94_shorts, C94_resistors (`PropParser.v`) |
| C95 | A document gives an ordinary network of lines | Induction over everything the parser builds. Scope: every document and set order. | C95_parsed, C95_run (`PropParser.v`) |
| C96 | The step given to a parser's run is the step of the simulation | Commutation of the step override with registration; induction over registered bundles and networks; computed documents for the refutation. Scope: law-free; the only condition is that comparisons find 0 equal to 0. | C96_run, C96_parse_and_run (`PropParserRun.v`) |
| C97 | Running a parser twice does not repeat the run | Commutation of the step override with registration; induction over registered bundles and networks; computed documents for the refutation. Scope: C97_repeat_refuted: two documents whose second run differs from the first, or raises. | C97_continues, C97_keeps_step, C97_rows, C97_repeat_refuted (`PropParserRun.v`) |
| C98 | Runs with an external field | Commutation of the step override with registration; induction over registered bundles and networks; computed documents for the refutation. Scope: law-free; SpecRun.same_but_outer_fields says what may differ beforehand. | C98_field, C98_replaces, C98_local, C98_unknown (`PropParserRun.v`) |
| C99 | Impedances of the elementary circuits | Closed forms of the complex quotients; induction over the list of terms. Scope: over the reals, one frequency at a time. | C99_RC, C99_RL, C99_RL_dc, C99_RL_series, C99_RL_series_power, C99_passive, C99_resonance (`PropFitting.v`) |
| C100 | Pole and residue sums | Closed forms of the complex quotients; induction over the list of terms. Scope: over the reals. | C100_sum, C100_short, C100_RC, C100_RL, C100_RL_series (`PropFitting.v`) |
| C101 | Debye permittivity | Closed forms of the complex quotients; induction over the list of terms. Scope: over the reals; the generator's outcome is an argument. | C101_rational, C101_signs, C101_noise, C101_short (`PropFitting.v`) |
| C102 | Resistance with skin effect | Closed forms of the complex quotients; induction over the list of terms. Scope: C102_continuous_refuted: the jump at f0. | C102_below, C102_above, C102_continuous_refuted, C102_resistance (`PropFitting.v`) |
| C103 | Exported fits | Exact characterisation of the exported entries; arithmetic of row numbers. Scope: C103_diagonal_refuted: for every number of ports >= 2 and every number of poles other than ports + 1. | C103_export, C103_fails, C103_diagonal, C103_diagonal_refuted (`PropFitting.v`) |
| C104 | Energy of networks of lines | Discrete energy of each bundle with the currents that enter its ends, of each circuit with the currents that leave its nodes; the two cancel by the permutation between circuit nodes and conductor ends; induction over the run; Cauchy-Schwarz per cell for the bound. Scope: Voltages are half a step older than currents, so the energy the scheme balances has a mixed term; C104_bounded turns it into a bound on the sum of squares. The loss in the capacitors is that of their backward Euler integration. | C104_balance, C104_never_grows, C104_bounded, C104_assembled (`PropNetEnergy.v`) |
| C105 | The lines of a document | Inversion of the parser's line, level and bundle loops into relations of SpecDoc.v, each defined from the document; values from C28, C29 and C33 by induction over the cable ends. Scope: C105_document chains bundles, sources and probes; C105_line_values gives the numbers over the reals. | C105_document, C105_line_values, C105_ends_on_first_conductor (`PropDoc.v`) |
| C106 | Transfer impedances of cable ends | The fold over the ends and edges as a relation; per edge the exact effect of C44, composed by induction over the edges. Scope: C106_ends_in_order places each end in the chain, C106_end_replaces gives its effect on every entry. | C106_ends_in_order, C106_end_replaces (`PropDoc.v`) |
| C107 | Distributed sources of a document | The fold over the sources as a relation; frame of C50 by induction; an executable document for the refutation. Scope: C107_conductor_of_the_cable_refuted: the conductor is counted in the whole bundle. | C107_sources, C107_rows, C107_conductor_of_the_cable_refuted (`PropDoc.v`) |
| C108 | Probes of a document | Invariant of the fold over the probe descriptions: places, probes per bundle and dictionary entries. | C108_probes (`PropDoc.v`) |
| C109 | Sine and double exponential waveforms | Real analysis: trigonometric identities, exp x > 1 + x for the maximum; direct evaluation of the branches. Scope: C109_frequency_in_hertz_refuted: a document's frequency is an angular one. | C109_sin_shape, C109_sin_extremes, C109_sin_period, C109_frequency_in_hertz_refuted, C109_double_exp_sign, C109_double_exp_below, C109_double_exp_peak (`PropWave.v`) |
| C110 | Travelling waveforms | Real analysis: trigonometric identities, exp x > 1 + x for the maximum; direct evaluation of the branches. Scope: C110_ramp_travels_refuted and C110_ramp_bounded_refuted hold for every amplitude, speed and rise time. | C110_double_exp_travels, C110_trapezoid_travels, C110_ramp_shape, C110_ramp_travels_refuted, C110_ramp_bounded_refuted (`PropWave.v`) |
| C111 | The simulation converges to the telegrapher's equations | The errors satisfy the scheme with residuals; residuals bounded from the smoothness of the solution; discrete energy of the errors, summation by parts and a discrete Gronwall inequality. Scope: terminal impedances are positive, so an ideal generator at an end (impedance zero) is not covered; the order is one: the generators act with the delay of C11 and the solution is only assumed to have bounded second derivatives. | C111_error_bounds, C111_pointwise_limit, C111_curved_if_second_derivative, C111_curved_has_derivative (`PropTelegraph.v`) |
| C112 | Reciprocity | Runs as power series in the step number with convolution as product; the scheme as a symmetric operator; summation by parts over the cells; cancellation of a common factor of convolutions for the exchange of one generator. Scope: a terminal that is a short circuit (impedance zero) is not covered. | C112_reciprocity, C112_exchange (`PropRecip.v`) |
| C113 | Time invariance | A step commutes with any change of the origin of time of the driving functions; before the drive starts the line is undriven after cutting the functions off; after that the shifted run is compared with the original by superposition. Scope: the delay is a whole number of time steps; C113_time_invariance and C113_later_generator are for lines without dispersive elements, C113_quiet for all lines. | C113_quiet, C113_time_invariance, C113_later_generator (`PropShift.v`) |
| C114 | A terminated line settles to direct current | The difference from the direct-current solution obeys the undriven scheme; its energy decreases and converges, so the currents into the damped end vanish; solving the scheme along the line then shows that the means of consecutive states vanish everywhere; below the limiting time step the energy controls the state, and the mixed term computed from cells and from nodes shows that it vanishes. Scope: C114_one_solution: the circuit of a damped lossy line has exactly one solution; C114_untied_alternates shows why starts_tied is asked. | C114_settles, C114_settles_on_average, C114_ring_down, C114_series_circuits, C114_voltage_divider, C114_one_solution, C114_untied_alternates (`PropSettle.v`) |
| C115 | Modes: linear combinations of conductors | A linear map of states that intertwines the matrices carries solutions of one scheme to solutions of the other; uniqueness of the step and induction over the steps; the modes, the balance and the impedance level are instances. Scope: lines without dispersive elements; the two lines run with the same time step, which is the constructor's when both modes have the same velocity (C115_modes_example). | C115_transform, C115_modes, C115_balanced, C115_impedance_level, C115_impedance_level_single (`PropModes.v`) |
| C116 | Causality and time invariance of networks of lines | The superposition invariant of C67 generalised to three networks with different clocks whose fields and sources are related only at the times the steps look at; causality is the combination 1*x+0*x at times before t1, quiescence 0*x+0*x, and the delay compares the prepared network with the delayed one that has been still for k steps. Scope: C116_time_invariance is for bundles in which no element stores more than one pole, and for delays of whole steps; the _rc versions need no assumption on the linear solver for circuits of resistors and capacitors. | C116_quiet, C116_quiet_rc, C116_causality, C116_causality_rc, C116_time_invariance, C116_time_invariance_rc, C116_calls, C116_built (`PropShiftNet.v`) |
| C117 | A stretch of a line cannot know at once what lies outside it | Two runs related step by step: entrywise equality of the two windows, which shrinks by one cell at each side and step; the coefficients of the updates are functions of the matrices of the same cell or node, and the circuits write the two end nodes only. Scope: law-free: holds of every arithmetic, floating point included; C117_lines shows that the bound of one cell per step is sharp. | C117_window, C117_ends (`PropStretch.v`) |
| C118 | The front of a wave, and time steps above the constructor's | Induction on the steps with the invariant that nodes and cells not yet reached are zero and that the voltage and current just reached satisfy the front equations, from the step equations of C09-C11 and C32. Scope: C118_diverging_lines builds such lines with the API, for every bound. | C118_front, C118_uniform, C118_diverges, C118_diverging_lines (`PropFront.v`) |
| C119 | A run of a network of lines can be split in two | Simulation between two networks of lines that differ in their probes only, phase by phase of the step; the coefficients of bundles and terminal networks are fixed points of their preparation and steps keep them, so the second preparation changes the probes only. Scope: law-free: no assumption on the arithmetic or on the linear algebra routines. | C119_runs_join, C119_durations (`PropCompose.v`) |
| C120 | The equation of a terminal is the balance of the components connected to it | While components go to ground all coefficient matrices stay diagonal, and the row of a node is that of its one component (induction over the calls, case by case); branches then add symmetric stamps. The balance is the equation of the step (C51) with these rows. Scope: sources in series with a branch between two nodes are left out: C54 shows that their currents do not add up; several components to ground at one node overwrite each other (C53). | C120_components, C120_node_balance (`PropElement.v`) |
| C121 | The charge of a network of lines changes only by what the terminals send in and what the conductances leak | Sum over the nodes of the equations of C12 and C51: the line currents telescope along each bundle, the two halves of the end cells are charged by the equation of the terminal, and the list of conductor ends is a permutation of the list of terminal nodes. C121_supply sums C120 over the nodes: each component to ground is met once, each branch twice with opposite signs. Scope: same networks of lines as C104; C121_supply and C121_floating leave out sources in series with a branch between two nodes (C54). | C121_charge, C121_supply, C121_floating (`PropCharge.v`) |
| C122 | Over any stretch of a conductor flux is accumulated voltage and charge is accumulated current | The discrete telegrapher equations of a step (MtlnR.run_telegraph) are summed over the cells or nodes of the stretch, where the differences telescope, and then over the steps by induction; coefficients do not change in a run (NetEnergyRun.marches_statics). Scope: bundles that march with the step of the network of lines; the flux law is for bundles without dispersive elements (kD, kE, kQ1, kQ2 zero and no pole ever added). | C122_flux, C122_charge (`PropFlux.v`) |

## 4. Trusted base

* Coq 8.16.1's kernel (`coqchk` was run on the compiled files).
* The reading of the Python code: each definition cites the lines it models and states its
  simplifications. Nothing connects the model to the Python text mechanically.
* The standard library's axioms listed by `Print Assumptions`. No other library's axioms and none
  of our own. Libraries other than the standard one are not used.

* no axioms (closed under the global context): C02_binary64_refuted, C03_every_step_recorded, C04_first_frame_is_live, C04_immutability_refuted, C04_later_frames_appended, C06_otherwise_accepted, C06_rejected_iff_outside, C08_any_type_accepted, C08_detected_when_stepping, C08_known_types_never_raise, C103_diagonal, C103_export, C103_fails, C105_document, C105_ends_on_first_conductor, C106_end_replaces, C106_ends_in_order, C107_conductor_of_the_cable_refuted, C107_rows, C107_sources, C108_probes, C117_ends, C117_window, C119_runs_join, C14_source, C14_window, C23_one_long_run, C23_prepare_idempotent, C23_second_run, C24_interior_source_ignored, C24_source_replaced, C25_copy_is_reset, C25_copy_keeps_dispersive_history, C27_3_2_refuted, C27_index_error, C28_accepted, C28_rejected, C29_accepted, C29_rejected, C30_mixed_rejected, C30_other_shapes_rejected, C39_multiply, C43_both_is_accepted, C43_both_is_ignored, C44_accepted, C44_connector_replaces, C44_couples_listed_pairs, C44_levels_must_be_adjacent, C46_null_model, C47_accepted, C47_connector_entry, C47_not_at_the_last_node, C47_not_outside, C47_only_on_a_free_entry, C48_accepted_iff, C48_block_diagonal, C48_counts, C48_rejected_with, C48_rows, C48_rows_distinct, C50_accumulates, C55_series_unknown, C55_unknown, C55_zero_alone, C55_zero_with_source, C57_accepted, C57_line_ends, C57_nodes, C57_numbering, C57_state_variables, C58_currents_total, C58_voltages, C58_voltages_total, C59_level_0, C59_registered, C60_collide, C62_accepted, C62_add, C62_duplicate, C62_order, C62_unique, C63_end_kept, C63_run_end, C64_run, C64_same, C64_whole_run, C66_frames, C66_probe_step, C68_networks, C70_vector_position, C70_zero_rejected, C71_columns, C71_entry_point, C71_port_probe, C71_swap, C72_accepted, C72_tree, C72_vertices_and_edges, C73_coupling, C73_found, C73_row, C74_first_line, C74_later_never, C74_none, C74_raises, C75_accepted, C75_first_lost, C75_last_junction, C75_last_termination, C75_partition, C76_in_order, C76_own_entry, C76_swapped_refuted, C76_termination, C77_document, C77_first, C77_missing, C78_known, C78_missing_parameter, C78_unknown, C78_unknown_raises, C79_arrays, C79_bundle, C79_bundle_end, C79_bundle_replaces, C79_line, C79_line_empty, C79_line_replaces, C80_blind, C80_field_at_construction, C81_one_pole_per_cell, C81_other_pole_counts_raise, C83_pole_counts_clash, C91_none, C91_not_read, C91_raises, C92_junction, C92_termination, C93_one_node, C93_several_nodes, C93_termination, C95_parsed, C95_run, C96_parse_and_run, C96_run, C97_continues, C97_repeat_refuted, C97_rows, C98_field, C98_local, C98_replaces, C98_unknown.
* `ClassicalDedekindReals.sig_forall_dec`, `FunctionalExtensionality.functional_extensionality_dep`: C111_curved_has_derivative, C16_diagram_exists, C16_diagram_unique, C50_fraction_range, C56_circuit_dissipates, C56_reversed_grows.
* `ClassicalDedekindReals.sig_forall_dec`, `ClassicalDedekindReals.sig_not_dec`, `FunctionalExtensionality.functional_extensionality_dep`: C01_number_of_steps, C01_repeated_runs, C02_exact_steps, C03_stamps, C05_nearest_node, C05_probe_node, C05_source_node, C06_decreasing_line_rejects_all, C06_increasing_line_accepts_nodes, C07_accepted_iff, C07_beyond_the_end_accepted, C07_cell_points_accepted, C07_probe_reads_closest_node, C09_voltage_equation, C100_RC, C100_RL, C100_RL_series, C100_short, C100_sum, C101_noise, C101_rational, C101_short, C101_signs, C102_above, C102_below, C102_continuous_refuted, C102_resistance, C103_diagonal_refuted, C104_assembled, C105_line_values, C109_sin_extremes, C109_sin_period, C109_sin_shape, C10_current_equation, C10_plain_current_equation, C110_double_exp_travels, C110_ramp_bounded_refuted, C110_ramp_shape, C110_ramp_travels_refuted, C110_trapezoid_travels, C112_exchange, C112_reciprocity, C113_later_generator, C113_quiet, C113_time_invariance, C114_one_solution, C114_ring_down, C114_series_circuits, C114_settles, C114_settles_on_average, C114_untied_alternates, C115_balanced, C115_impedance_level, C115_modes, C115_transform, C116_built, C116_calls, C116_causality, C116_causality_rc, C116_quiet, C116_quiet_rc, C116_time_invariance, C116_time_invariance_rc, C118_diverges, C118_front, C118_uniform, C119_durations, C11_left_terminal, C11_right_terminal, C11_short_circuit_left, C11_short_circuit_right, C120_components, C120_node_balance, C121_charge, C121_floating, C121_supply, C122_charge, C12_sources, C12_superposition, C13_line, C13_network, C13_network_rc, C13_network_run, C13_new_bundle, C13_new_circuit, C13_new_line, C13_new_network, C15_causality, C15_causality_all, C16_any_uniform_line, C18_energy_balance, C18_energy_never_grows, C18_losses_nonneg, C18_weights, C18_whole_run, C19_bounded_for_ever, C19_many_conductors, C19_margin, C20_mirror, C21_uncoupled, C22_relabel, C23_exact_durations, C25_copy_runs_like_the_original, C26_geometry, C27_misplaced_vertex, C30_diagonal, C31_courant, C31_default_step, C32_equation_broken, C32_no_capacitance_agrees, C32_terminals_keep_old_step, C33_bundle_accepts, C33_bundle_one_row_of_one_cell, C33_bundle_otherwise_raises, C33_one_row_of_one_cell, C33_otherwise_raises, C33_point_conductor_0, C33_point_other_conductors, C34_bundle_accepts, C34_bundle_one_row_of_one_node, C34_bundle_otherwise_raises, C34_bundle_uses_closest_node, C34_point_conductor_0, C34_point_other_conductors, C34_position_ignored, C35_square_pulse, C35_triangle_pulse, C36_corner_refuted, C36_ramp_bounded, C36_ramp_monotone, C36_ramp_shape, C37_bounded, C37_period, C37_shape, C37_symbolic_shape, C38_sin_sq_pulse, C39_add_pointwise, C40_accepted_points, C40_segment_accepted, C40_short_segments_refuted, C42_bundle, C42_line, C46_zero_model, C48_common_nodes, C48_smallest_step, C50_accepted, C50_end_in_last_half_cell_raises, C50_fraction_of_the_cell, C50_on_nodes, C51_kirchhoff, C51_states, C52_accepted, C52_order, C52_passive, C53_branch_then_ground, C53_ground_then_branch, C53_ground_twice, C53_not_passive, C53_overwrites, C54_one_source, C54_opposed, C54_two_sources, C55_series, C56_reversed, C58_currents, C61_conductance, C62_large_steps_ignored, C62_smallest_step, C64_built, C65_explicit_step, C65_inconsistent, C65_own_step, C66_stamps, C67_built, C67_calls, C67_run, C67_superposition, C67_superposition_rc, C68_orthonormal, C68_slowness, C68_speed, C68_travels, C68_value, C70_frequencies, C70_waves, C75_groups, C79_accepted, C82_negative_before_start, C82_shape, C84_run_never_raises, C85_connectors_keep_the_first_step, C86_memory_counted_q_times, C88_calls_accepted, C88_never_raises, C89_bundles, C89_never_raises, C90_energy, C94_resistors, C94_shorts, C97_keeps_step, C99_RC, C99_RL, C99_RL_dc, C99_RL_series, C99_RL_series_power, C99_passive.
* `ClassicalDedekindReals.sig_forall_dec`, `ClassicalDedekindReals.sig_not_dec`, `Classical_Prop.classic`, `FunctionalExtensionality.functional_extensionality_dep`: C104_balance, C104_bounded, C104_never_grows, C109_double_exp_below, C109_double_exp_peak, C109_double_exp_sign, C109_frequency_in_hertz_refuted, C111_curved_if_second_derivative, C111_error_bounds, C111_pointwise_limit, C114_voltage_divider, C115_impedance_level_single, C122_flux, C16_bounce_diagram, C17_pure_delay, C38_exp, C38_gaussian, C38_gaussian_2, C41_connector_weights, C41_weights, C45_one_way_has_no_memory, C47_never_twice, C49_line_as_if_alone, C61_same, C69_along_x, C69_down, C69_isometry, C69_polarization_refuted, C69_up, C69_wave, C84_coupled_lines, C84_single_conductor_line, C87_passive_connectors_never_raise, C99_resonance.
* `ClassicalDedekindReals.sig_forall_dec`, `ClassicalDedekindReals.sig_not_dec`, `ClassicalEpsilon.constructive_indefinite_description`, `Classical_Prop.classic`, `FunctionalExtensionality.functional_extensionality_dep`: C118_diverging_lines, C32_set_time_step_refuted, C42_intended_refuted, C54_superposition_refuted, C61_conductance_refuted, C65_refuted, C79_last_node_refuted, C79_superposition_refuted.

The first set is empty: those theorems hold in plain type theory. `sig_forall_dec` and
`sig_not_dec` define the classical reals; functional extensionality comes with them.
`Classical_Prop.classic` enters through the trigonometric functions of the standard library.
`constructive_indefinite_description` enters through the real LAPACK instance of `LapackR.v`,
which chooses an inverse when one exists; it is used only where a theorem exhibits a run.

## 5. Findings

Behaviour of the code that its users would not expect. Each is stated in, or follows from, the theorems of the property in brackets.

Lines (`mtl.py`):

* Only sources at the two end nodes act; a source attached to an inner node is stored and ignored (C24).
* The terminal coefficients are computed in the constructor: `set_time_step` and `add_conductance_*` leave them at the old step and conductance (C32), and dispersive coefficients keep the construction-time step (C85).
* `set_time_step` asks for NDT steps but in binary64 `run_until` may perform one fewer (C02).
* Unequal division counts per segment misplace nodes or raise IndexError (C27).
* `MTL.add_conductance_in_region` ignores the position on z-aligned lines (C34).
* `MTL.add_probe` accepts the whole box between the ends (C06); a bundle accepts a phantom cell past its end (C07).
* An unknown probe type is only detected in the first step (C08). The first frame of a probe that was never resized is a live view of the state (C04).
* The energy and stability results need the step to satisfy the Courant condition (C18, C19). `set_time_step` and `run_until(T, dt)` accept any step; above the constructor's the results grow without bound and nothing is raised (C118).
* The default step of a multiconductor line is that of its fastest mode, so an uncoupled conductor by itself has another default step (C21).
* A zero-impedance driven end oscillates, since both the present and the previous source value enter the terminal equation (C11). Its voltage never settles for a constant generator it does not start at: it alternates between 0 and twice the generator's voltage (C114).

Dispersive elements (`dispersive.py`):

* `("in" or "both")` is `"in"`: a transfer impedance with direction `both` is ignored (C43).
* `self.q1[:, i, j] += arr` broadcasts over cells: the number of poles must be one or the number of cells, and then pole k acts in cell k (C81).
* The stored history weights the newest current twice (C42); a one-way transfer impedance has no memory at all (C45).
* Two connectors with different numbers of poles in one cell make the run raise ValueError (C83); next to a q-pole connector the memory of a one-pole connector is counted q times (C86).
* At most one connector per conductor and cell, none at the last node (C47).

Circuits (`networks.py`):

* `connect_to_ground` overwrites what branches contributed; branch then ground with a larger resistance is not passive (C53).
* Two branches with sources on one node interfere (C54). A source behind zero resistance to ground raises ZeroDivisionError (C55).
* The series-R parallel-LC termination is stamped time-reversed; its solutions grow without bound (C56).
* The node law has no conductance term, so with `g > 0` a line in a network differs from the same line alone (C61).
* Every conductor of every line of a network has to be connected, otherwise ValueError (C51, C57).
* Field values at the nodes are read when the circuit is constructed; fields added to the bundle later are ignored by it (C80).

Networks of lines (`mtln.py`):

* Rows are shifted at every registration (C59); the second line of a level is mapped to the rows of the first (C60).
* The step starts at 1e10, so bundles with a larger step do not define it (C62). Bundles of different own steps are marched with the network's step and their own coefficients (C65). Current probe stamps keep the construction-time step (C66).
* An end attached to no circuit keeps its voltage for ever (C63).
* `MTLN.add_planewave` always raises AttributeError when there is a bundle (C79). External fields are replaced, not added (C79), and the same distances are used for all bundles (C79).

Fields (`mtl.py`, waveforms):

* `rotate_to_segment` loses the sign of an azimuth, does not rotate the polarisation, fails for segments pointing down and gives nan along x (C69).
* Plane waves along a coordinate axis divide by zero (C68).
* `add_localized_longitudinal_field` sets the factor of the last cell to zero or counts a cell twice in corner cases (C50).
* `ramp_pulse` doubles at its corner, `ramp_pulse_sp` is negative before 0, `ramp_pulse_x_sp` uses `t` instead of the retarded time on the ramp (C36, C82, C110); `trapezoidal_wave` doubles at its upper corners, the symbolic one does not (C37).

Ports and extraction (`probes.py`, `networkExtraction.py`):

* `add_port_probe` reads a missing attribute; `Port.getTerminal` compares a three-vector with 0.0; `getSolvedProbesFromLine` reads `line.x`. Extraction always raises (C70, C71).

Parser (`jsonParser.py`):

* A cable nested in a cable whose wire has no transfer impedance raises AttributeError (C91).
* Single-node terminations of type MultiwireConnector or unknown type, and multi-node ones of other types, are silently left open (C93).
* In junctions everything but resistors is a short, and a source on a shorted junction is lost (C94).
* Connectors and sources of a multi-node termination are looked up by conductor number, so nodes listed out of order swap them (C76).
* Two terminations at one point and level: the first is lost (C75).
* The side of a description item is that of its first listed node (C92).
* An unknown magnitude type yields a function returning None (C78); lumped elements must be given for all cables or none (C77).
* `_addConnectorsResistance` can only reach conductor 0: a cable end on another conductor raises IndexError, one on conductor 0 of several also overwrites the mutual resistances of the row (C77, C105).
* The conductor of a distributed source is counted in the whole bundle, not in the cable it names: a source on an inner cable drives the shield (C107).
* The `frequency` of a sine source is used as an angular frequency (C109).
* A second `run` of one parser continues from the state of the first; with shielded conductors it connects other conductors or raises IndexError (C97).
* `runWithExternalField` discards the distributed sources of the document on the outermost conductors (C98).

Fits (`VF/utils.py`):

* `z` is doubled exactly at f0 (C102).
* `serializeJSON` exports the entries i*nPoles of the port matrix instead of the diagonal i*(dim+1), and empties the file before it can fail (C103). The names it writes (`constant`, `polesR`, `residuesR`, ...) are not those `dispersive.py` reads.

## 6. Testing the theorems against wrong programs

`seeded/LOG.jsonl` lists edits of the model that imitate realistic bugs. For each: the edited
definition, the claim it breaks, the lemmas and theorems whose proofs failed, and the theorems
tightened because of it. An edit counts as detected only when the proof of the claim's own
theorem, or of a lemma it rests on, fails.
