-Q theories Verif
theories/Base.v
theories/Base_Proofs.v
theories/PackBuf_Model.v
theories/PackBuf_Spec.v
theories/PackBuf_Proofs.v
theories/PackBuf_Props.v
theories/Codec_Model.v
theories/Codec_Spec.v
theories/Codec_Proofs.v
theories/Codec_Proofs2.v
theories/Codec_Proofs3.v
theories/Codec_Props.v
theories/Weak_Model.v
theories/Weak_Props.v
theories/Stream_Model.v
theories/Stream_Spec.v
theories/Stream_Proofs.v
theories/Stream_Props.v
theories/Graph_Model.v
theories/Graph_Spec.v
theories/Graph_Proofs.v
theories/Graph_Props.v
theories/Ref_Model.v
theories/Ref_Spec.v
theories/Ref_Proofs.v
theories/Ref_Props.v
theories/Xdr_Model.v
theories/Xdr_Spec.v
theories/Xdr_Proofs.v
theories/Xdr_Props.v
theories/Xdr2_Model.v
theories/Xdr2_Props.v
theories/SMap.v
theories/Desc_Model.v
theories/Desc_Props.v
theories/Json_Model.v
theories/Json_Spec.v
theories/Json_Proofs.v
theories/Json_Proofs2.v
theories/Json_Props.v
theories/Dec.v
theories/Xml_Model.v
theories/Xml_Spec.v
theories/Xml_Proofs.v
theories/Xml_Proofs2.v
theories/Xml_Proofs3.v
theories/Xml_Proofs4.v
theories/Xml_Proofs5.v
theories/Xml_Props.v
theories/MArr_Model.v
theories/MArr_Props.v
theories/Rest_Model.v
theories/Rest_Props.v
theories/Rest2_Model.v
theories/Rest2_Props.v
theories/Call_Props.v
theories/Factory_Model.v
theories/Factory_Props.v
theories/MPI_Model.v
theories/MPI_Props.v
theories/Xsd_Model.v
theories/Xsd_Props.v
theories/Tok_Model.v
theories/Tok_Props.v
theories/Parse_Model.v
theories/Parse_Props.v
theories/Ns_Props.v
theories/Java_Model.v
theories/Java_Props.v
theories/JavaSig_Model.v
theories/JavaSig_Props.v
theories/Jni_Model.v
theories/Jni_Props.v
theories/Isa_Model.v
theories/Isa_Props.v
theories/ClassParse_Model.v
theories/ClassParse_Proofs.v
theories/ClassParse_Spec.v
theories/ClassFile_Spec.v
theories/ClassMem_Proofs.v
theories/ClassFile_Proofs.v
theories/ClassEnum_Proofs.v
theories/ClassNest_Proofs.v
theories/ClassTempl_Proofs.v
theories/ClassLoop_Proofs.v
theories/ClassParse_Props.v
theories/ClassNest_Props.v
theories/Json2_Props.v
theories/Xml2_Props.v
theories/Tok2_Props.v
theories/Tight_Props.v
theories/Gen_Model.v
theories/GenOpt_Props.v
theories/GenPP_Props.v
theories/Gen_Props.v
theories/GenFile_Props.v
theories/GenTd_Props.v
theories/GenName_Props.v
theories/GenPrag_Props.v
theories/GenOver_Props.v
theories/GenTight_Props.v
theories/GenTempl_Props.v
theories/ClassOver_Spec.v
theories/ClassOver_Proofs.v
theories/OverSig_Props.v
theories/InsFriend_Model.v
theories/InsFriend_Props.v
theories/PyBuf_Model.v
theories/PyBuf_Proofs.v
theories/PyBuf_Proofs2.v
theories/PyBuf_Props.v
theories/PyReg_Model.v
theories/PyReg_Props.v
theories/RestObj_Model.v
theories/RestObj_Proofs.v
theories/RestObj_Proofs2.v
theories/RestObj_Props.v
theories/RestObj2_Props.v
theories/RestObj3_Props.v
theories/Tight2_Props.v
theories/Stream2_Model.v
theories/Stream2_Props.v
theories/Tight3_Props.v
theories/Tight4_Props.v
theories/XmlDoc_Spec.v
theories/XmlDoc_Proofs.v
theories/XmlDoc_Proofs2.v
theories/XmlDoc_Proofs3.v
theories/XmlDoc_Props.v
theories/RestArr_Model.v
theories/RestArr_Props.v
theories/Rand_Model.v
theories/Rand_Props.v
theories/TypeName_Model.v
theories/TypeName_Props.v
theories/Tight5_Props.v
theories/Dump_Model.v
theories/Dump_Props.v
theories/PyScope_Model.v
theories/PyScope_Props.v
theories/PyClass_Model.v
theories/PyClass_Props.v
theories/Tight6_Props.v
theories/SBuf_Model.v
theories/SBuf_Props.v
theories/Tight7_Props.v
theories/PyEnum_Model.v
theories/PyEnum_Props.v
theories/Tight8_Props.v
theories/Tight9_Props.v
theories/Tight10_Props.v
theories/Tight11_Props.v
theories/PyCall_Model.v
theories/PyCall_Props.v
