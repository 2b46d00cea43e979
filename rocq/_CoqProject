-Q theories Verif
theories/Base.v
theories/TreeModel.v
theories/TreeSpec.v
theories/TreeProofs.v
theories/PropertiesTree.v
theories/GameSpec.v
theories/GameProofs.v
theories/ShapModel.v
theories/ShapSpec.v
theories/ShapProofs.v
theories/AcvModel.v
theories/AcvSpec.v
theories/AcvProofs.v
theories/PropertiesShap.v
theories/SdpModel.v
theories/SdpSpec.v
theories/SdpProofs.v
theories/PropertiesSdp.v
theories/SearchModel.v
theories/SearchSpec.v
theories/SearchProofs.v
theories/PropertiesSearch.v
theories/RfModel.v
theories/RfSpec.v
theories/RfProofs.v
theories/RfTreeProofs.v
theories/PropertiesRf.v
theories/QuantModel.v
theories/QuantSpec.v
theories/QuantProofs.v
theories/QuantForestProofs.v
theories/PropertiesQuant.v
theories/RulesModel.v
theories/RulesSpec.v
theories/RulesProofs.v
theories/RulesModelProofs.v
theories/PropertiesRules.v
theories/AnnealModel.v
theories/AnnealSpec.v
theories/AnnealProofs.v
theories/PropertiesAnneal.v
theories/SwingModel.v
theories/SwingSpec.v
theories/SwingProofs.v
theories/PropertiesSwing.v
theories/LocalModel.v
theories/LocalSpec.v
theories/LocalProofs.v
theories/PropertiesLocal.v
theories/LoadModel.v
theories/LoadSpec.v
theories/LoadProofs.v
theories/PropertiesLoad.v
theories/XgbModel.v
theories/XgbSpec.v
theories/XgbProofs.v
theories/PropertiesXgb.v
theories/RegModel.v
theories/RegSpec.v
theories/RegProofs.v
theories/PropertiesReg.v
theories/ExplModel.v
theories/ExplSpec.v
theories/ExplProofs.v
theories/PropertiesExpl.v
theories/CrModel.v
theories/CrSpec.v
theories/CrProofs.v
theories/PropertiesCr.v
theories/DivModel.v
theories/DivSpec.v
theories/DivProofs.v
theories/PropertiesDiv.v
theories/NormModel.v
theories/NormSpec.v
theories/NormProofs.v
theories/PropertiesNorm.v
theories/PyShapModel.v
theories/PyShapSpec.v
theories/PyShapProofs.v
theories/PropertiesPyShap.v
theories/AdapModel.v
theories/AdapSpec.v
theories/AdapProofs.v
theories/PropertiesAdap.v
theories/ClfModel.v
theories/ClfSpec.v
theories/ClfProofs.v
theories/PropertiesClf.v
theories/BoostModel.v
theories/BoostSpec.v
theories/BoostProofs.v
theories/PropertiesBoost.v
theories/NopaModel.v
theories/NopaProofs.v
theories/PropertiesNopa.v
theories/MaxModel.v
theories/MaxProofs.v
theories/PropertiesMax.v
theories/PartModel.v
theories/PartSpec.v
theories/PartProofs.v
theories/PropertiesPart.v
theories/FlatModel.v
theories/FlatSpec.v
theories/FlatProofs.v
theories/PropertiesFlat.v
theories/SkModel.v
theories/SkSpec.v
theories/SkProofs.v
theories/SkIsoProofs.v
theories/PropertiesSk.v
theories/RecModel.v
theories/RecSpec.v
theories/RecProofs.v
theories/PropertiesRec.v
theories/BiasModel.v
theories/BiasSpec.v
theories/BiasProofs.v
theories/PropertiesBias.v
theories/RebModel.v
theories/RebSpec.v
theories/RebProofs.v
theories/PropertiesReb.v
theories/MvnModel.v
theories/MvnSpec.v
theories/MvnProofs.v
theories/PropertiesMvn.v
theories/PermModel.v
theories/PermSpec.v
theories/PermProofs.v
theories/PropertiesPerm.v
theories/GmmModel.v
theories/GmmSpec.v
theories/GmmProofs.v
theories/PropertiesGmm.v
theories/McModel.v
theories/McSpec.v
theories/McProofs.v
theories/PropertiesMc.v
theories/ApiModel.v
theories/ApiSpec.v
theories/ApiProofs.v
theories/PropertiesApi.v
theories/CteModel.v
theories/CteSpec.v
theories/CteProofs.v
theories/CteProofs2.v
theories/CteProofs3.v
theories/CteProofs4.v
theories/CteCases.v
theories/PropertiesCte.v
theories/PropertiesCte2.v
theories/ArrModel.v
theories/ArrSpec.v
theories/ArrProofs.v
theories/ArrProofs2.v
theories/ArrProofs3.v
theories/ArrProofs4.v
theories/PropertiesArr.v
theories/EntryModel.v
theories/EntrySpec.v
theories/EntryProofs.v
theories/EntryProofs2.v
theories/EntryProofs3.v
theories/EntryProofs4.v
theories/PropertiesEntry.v
theories/SbufModel.v
theories/SbufSpec.v
theories/SbufProofs.v
theories/SbufProofs2.v
theories/PropertiesSbuf.v
theories/AbufModel.v
theories/AbufSpec.v
theories/AbufProofs.v
theories/AbufProofs2.v
theories/AbufProofs3.v
theories/AbufProofs4.v
theories/PropertiesAbuf.v
theories/ImpModel.v
theories/ImpSpec.v
theories/ImpProofs.v
theories/ImpProofs2.v
theories/ImpProofs3.v
theories/PropertiesImp.v
theories/RcatModel.v
theories/RcatSpec.v
theories/RcatProofs.v
theories/RcatProofs2.v
theories/RcatProofs3.v
theories/PropertiesRcat.v
theories/OwnModel.v
theories/OwnSpec.v
theories/OwnProofs.v
theories/OwnProofs2.v
theories/OwnProofs3.v
theories/PropertiesOwn.v
theories/RimpModel.v
theories/RimpSpec.v
theories/RimpProofs.v
theories/RimpProofs2.v
theories/PropertiesRimp.v
theories/CbufModel.v
theories/CbufProofs.v
theories/CbufProofs2.v
theories/PropertiesCbuf.v
theories/MsdpModel.v
theories/MsdpSpec.v
theories/MsdpProofs.v
theories/MsdpProofs2.v
theories/PropertiesMsdp.v
theories/AgnModel.v
theories/AgnSpec.v
theories/AgnProofs.v
theories/PropertiesAgn.v
theories/AxsModel.v
theories/AxsSpec.v
theories/AxsProofs.v
theories/PropertiesAxs.v
theories/BoxSpec.v
theories/BoxProofs.v
theories/PropertiesBox.v
theories/AsfModel.v
theories/AsfSpec.v
theories/AsfProofs.v
theories/PropertiesAsf.v
theories/TxtModel.v
theories/TxtSpec.v
theories/TxtProofs.v
theories/PropertiesTxt.v
theories/NbufModel.v
theories/NbufSpec.v
theories/NbufProofs.v
theories/NbufProofs2.v
theories/NbufProofs3.v
theories/NbufProofs4.v
theories/PropertiesNbuf.v
theories/QbufModel.v
theories/QbufSpec.v
theories/QbufProofs.v
theories/QbufProofs2.v
theories/QbufProofs3.v
theories/QbufProofs4.v
theories/PropertiesQbuf.v
theories/CrsModel.v
theories/CrsSpec.v
theories/CrsProofs.v
theories/CrsProofs2.v
theories/PropertiesCrs.v
theories/SufModel.v
theories/SufSpec.v
theories/SufProofs.v
theories/PropertiesSuf.v
theories/SampModel.v
theories/SampSpec.v
theories/SampProofs.v
theories/PropertiesSamp.v
theories/SwgModel.v
theories/SwgSpec.v
theories/SwgProofs.v
theories/SwgProofs2.v
theories/PropertiesSwg.v
theories/SwdModel.v
theories/SwdSpec.v
theories/SwdProofs.v
theories/SwdProofs2.v
theories/PropertiesSwd.v
theories/ShowModel.v
theories/ShowSpec.v
theories/ShowProofs.v
theories/PropertiesShow.v
theories/AllModel.v
theories/PropertiesAll.v
