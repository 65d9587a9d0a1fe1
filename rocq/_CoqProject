-Q theories Verif
theories/RingBuffer_model.v
theories/RingBuffer_spec.v
theories/RingBuffer_proofs.v
theories/Properties_RingBuffer.v
theories/Protocol_model.v
theories/Protocol_spec.v
theories/Protocol_proofs.v
theories/Properties_Protocol.v
theories/UnixSystem_model.v
theories/UnixSystem_spec.v
theories/UnixSystem_proofs.v
theories/UnixSystem_witness.v
theories/UnixStay_proofs.v
theories/UnixPass_model.v
theories/UnixPass_spec.v
theories/UnixPass_proofs.v
theories/Properties_UnixSystem.v
theories/Loopback_model.v
theories/Loopback_spec.v
theories/Loopback_proofs.v
theories/Properties_Loopback.v
theories/OMap_model.v
theories/OMap_proofs.v
theories/Registry_model.v
theories/Registry_spec.v
theories/Registry_proofs.v
theories/Manager_model.v
theories/Manager_spec.v
theories/Manager_proofs.v
theories/Properties_Manager.v
theories/UnixLife_model.v
theories/UnixLife_proofs.v
theories/Properties_UnixLife.v
theories/Collector_model.v
theories/Collector_spec.v
theories/Collector_proofs.v
theories/TwoSenders_model.v
theories/TwoSenders_proofs.v
theories/Properties_Collector.v
theories/TraceEvent_model.v
theories/Config_model.v
theories/Config_spec.v
theories/Config_proofs.v
theories/Properties_Config.v
theories/Crc_model.v
theories/Crc_spec.v
theories/Crc_proofs.v
theories/Properties_Crc.v
theories/Names_model.v
theories/Names_spec.v
theories/Names_proofs.v
theories/Properties_Names.v
theories/Native_model.v
theories/Native_spec.v
theories/Native_proofs.v
theories/FloatTime_proofs.v
theories/Native_witness.v
theories/Properties_Native.v
theories/Provider_model.v
theories/Provider_spec.v
theories/Provider_proofs.v
theories/Provider_witness.v
theories/Properties_Provider.v
theories/Json_model.v
theories/Json_spec.v
theories/Json_proofs.v
theories/JsonRead_proofs.v
theories/Session_model.v
theories/Session_spec.v
theories/Session_proofs.v
theories/Session_witness.v
theories/Properties_Session.v
theories/Recorder_model.v
theories/Recorder_spec.v
theories/Recorder_proofs.v
theories/Recorder_witness.v
theories/Properties_Recorder.v
theories/Backend_model.v
theories/Backend_spec.v
theories/Backend_proofs.v
theories/Backend_witness.v
theories/Properties_Backend.v
theories/Str_model.v
theories/Str_proofs.v
theories/Discover_model.v
theories/Discover_spec.v
theories/Discover_proofs.v
theories/Properties_Discover.v
theories/Ctf_model.v
theories/Ctf_spec.v
theories/Ctf_proofs.v
theories/Properties_Ctf.v
theories/Delivery_model.v
theories/Delivery_spec.v
theories/Delivery_proofs.v
theories/Properties_Delivery.v
theories/Lines_model.v
theories/Lines_spec.v
theories/Lines_proofs.v
theories/Properties_Lines.v
theories/Lttng_model.v
theories/Lttng_spec.v
theories/Lttng_proofs.v
theories/Properties_Lttng.v
theories/Tracker_model.v
theories/Tracker_spec.v
theories/Tracker_proofs.v
theories/Tracker_witness.v
theories/Properties_Tracker.v
theories/Bson_model.v
theories/Bson_spec.v
theories/Bson_proofs.v
theories/Properties_Bson.v
theories/Wire_model.v
theories/Wire_spec.v
theories/Wire_proofs.v
theories/Info_model.v
theories/Info_spec.v
theories/Info_proofs.v
theories/Wire_witness.v
theories/Properties_Wire.v
theories/Properties_Info.v
theories/PyJson_model.v
theories/PyJson_spec.v
theories/PyText_proofs.v
theories/PyJson_proofs.v
theories/PyJson_witness.v
theories/Properties_PyJson.v
theories/PySwitch_model.v
theories/PySwitch_spec.v
theories/PySwitch_proofs.v
theories/PySwitch_witness.v
theories/Properties_PySwitch.v
theories/PyIds_model.v
theories/PyIds_spec.v
theories/PyIds_proofs.v
theories/PyIds_witness.v
theories/Properties_PyIds.v
theories/Locks_model.v
theories/Locks_spec.v
theories/Locks_proofs.v
theories/Locks_witness.v
theories/Properties_Locks.v
theories/Cbor_model.v
theories/Cbor_spec.v
theories/Cbor_proofs.v
theories/CborAny_proofs.v
theories/Properties_Cbor.v
theories/EndToEnd_lists.v
theories/EndToEnd_model.v
theories/EndToEnd_spec.v
theories/EndToEnd_parts.v
theories/EndToEnd_proofs.v
theories/EndToEnd_witness.v
theories/Properties_EndToEnd.v
theories/Races_model.v
theories/Races_spec.v
theories/Races_proofs.v
theories/Races_witness.v
theories/Properties_Races.v
theories/PyGil_model.v
theories/PyGil_spec.v
theories/PyGil_proofs.v
theories/PyGil_witness.v
theories/Properties_PyGil.v
theories/Framing_model.v
theories/Framing_spec.v
theories/Framing_proofs.v
theories/Framing_witness.v
theories/Properties_Framing.v
theories/Ended_model.v
theories/Ended_spec.v
theories/Ended_proofs.v
theories/Ended_witness.v
theories/Properties_Ended.v
theories/Record_model.v
theories/Record_spec.v
theories/Record_proofs.v
theories/Record_witness.v
theories/Properties_Record.v
theories/Commands_model.v
theories/Commands_spec.v
theories/Commands_proofs.v
theories/Commands_witness.v
theories/Properties_Commands.v
theories/Tool_model.v
theories/Tool_spec.v
theories/Tool_proofs.v
theories/Tool_witness.v
theories/Properties_Tool.v
theories/Inherit_model.v
theories/Inherit_spec.v
theories/Inherit_proofs.v
theories/Inherit_witness.v
theories/Properties_Inherit.v
theories/Program_model.v
theories/Program_spec.v
theories/Program_proofs.v
theories/Program_witness.v
theories/Properties_Program.v
theories/Startup_model.v
theories/Startup_spec.v
theories/Startup_proofs.v
theories/Startup_witness.v
theories/Properties_Startup.v
theories/Duplex_model.v
theories/Duplex_spec.v
theories/Duplex_proofs.v
theories/Duplex_witness.v
theories/Properties_Duplex.v
theories/Http_model.v
theories/Http_spec.v
theories/Http_proofs.v
theories/Properties_Http.v
theories/Memory_model.v
theories/Memory_spec.v
theories/Memory_proofs.v
theories/Properties_Memory.v
theories/Toggle_spec.v
theories/Toggle_proofs.v
theories/Properties_Toggle.v
theories/File_spec.v
theories/File_proofs.v
theories/File_witness.v
theories/Properties_File.v
theories/Flow_model.v
theories/Flow_spec.v
theories/Flow_proofs.v
theories/Flow_witness.v
theories/Properties_Flow.v
theories/PyTrace_model.v
theories/PyTrace_spec.v
theories/PyTrace_proofs.v
theories/PyTrace_witness.v
theories/Properties_PyTrace.v
theories/Expose_model.v
theories/Expose_spec.v
theories/Expose_proofs.v
theories/Expose_witness.v
theories/Properties_Expose.v
theories/LttngTime_proofs.v
theories/PyLife_model.v
theories/PyLife_spec.v
theories/PyLife_proofs.v
theories/PyLife_witness.v
theories/Properties_PyLife.v
theories/Fork_model.v
theories/Fork_spec.v
theories/Fork_proofs.v
theories/Fork_witness.v
theories/Properties_Fork.v
theories/PyWait_model.v
theories/PyWait_spec.v
theories/PyWait_proofs.v
theories/PyWait_witness.v
theories/Properties_PyWait.v
theories/Switch_model.v
theories/Switch_spec.v
theories/Switch_proofs.v
theories/Switch_witness.v
theories/Properties_Switch.v
theories/Rings_model.v
theories/Rings_spec.v
theories/RingsStep_proofs.v
theories/Rings_proofs.v
theories/RingsUse_proofs.v
theories/RingsPass_proofs.v
theories/Rings_witness.v
theories/Properties_Rings.v
theories/RingsFresh_spec.v
theories/RingsFresh_proofs.v
theories/Properties_RingsFresh.v
theories/Tracers_model.v
theories/Tracers_spec.v
theories/Tracers_proofs.v
theories/TracersRec_proofs.v
theories/Tracers_witness.v
theories/Properties_Tracers.v
theories/PySource_model.v
theories/PySource_spec.v
theories/PySource_proofs.v
theories/PySource_witness.v
theories/Properties_PySource.v
theories/Whole_model.v
theories/Whole_spec.v
theories/WholeParts_proofs.v
theories/WholeProc_proofs.v
theories/WholeSim_proofs.v
theories/WholeFile_proofs.v
theories/WholeUse_proofs.v
theories/Whole_witness.v
theories/Properties_Whole.v
theories/Linear_model.v
theories/Linear_spec.v
theories/Linear_proofs.v
theories/LinearUse_proofs.v
theories/Linear_witness.v
theories/Properties_Linear.v
theories/Foreign_spec.v
theories/Foreign_proofs.v
theories/Foreign_witness.v
theories/Properties_Foreign.v
theories/Flush_spec.v
theories/FlushRings_proofs.v
theories/FlushParts_proofs.v
theories/Flush_proofs.v
theories/Flush_witness.v
theories/Properties_Flush.v
theories/Starve_model.v
theories/Starve_spec.v
theories/Starve_proofs.v
theories/Properties_Starve.v
theories/Exit_model.v
theories/Exit_spec.v
theories/Exit_proofs.v
theories/Exit_witness.v
theories/Properties_Exit.v
theories/Clock_model.v
theories/Clock_spec.v
theories/Clock_proofs.v
theories/Clock_witness.v
theories/Properties_Clock.v
theories/Viewers_model.v
theories/Viewers_spec.v
theories/Viewers_proofs.v
theories/Viewers_witness.v
theories/Properties_Viewers.v
theories/Polling_model.v
theories/Polling_spec.v
theories/Polling_proofs.v
theories/Polling_witness.v
theories/Properties_Polling.v
theories/Still_model.v
theories/Still_spec.v
theories/Still_proofs.v
theories/Still_witness.v
theories/Properties_Still.v
theories/SessionLost_proofs.v
theories/Properties_SessionLost.v
theories/Dump_model.v
theories/Dump_spec.v
theories/Dump_proofs.v
theories/Dump_witness.v
theories/Properties_Dump.v
theories/Owners_model.v
theories/Owners_spec.v
theories/Owners_proofs.v
theories/Owners_witness.v
theories/Properties_Owners.v
theories/Rate_spec.v
theories/Rate_proofs.v
theories/Rate_witness.v
theories/Properties_Rate.v
theories/PyAdd_model.v
theories/PyAdd_spec.v
theories/PyAdd_proofs.v
theories/PyAdd_witness.v
theories/Properties_PyAdd.v
theories/CmdLine_model.v
theories/CmdLine_spec.v
theories/CmdLine_proofs.v
theories/CmdLine_witness.v
theories/Properties_CmdLine.v
